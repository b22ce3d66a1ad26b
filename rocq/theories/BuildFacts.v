(** More functions whose debug result is their release result. *)
From Verif Require Import ModeFacts Game Utils PosDebug Gnuid Xgid Fibs MoveText Ubgi Runtime Perft Corpus Conversion Show Dice DiceSource PropMoveText Bench.
Unset Implicit Arguments.
Open Scope Z_scope.

Lemma refines_ebind {E A B} (a a' : res (E + A)) (f f' : A -> res (E + B)) :
  refines a a' -> (forall x, refines (f x) (f' x)) -> refines (ebind a f) (ebind a' f').
Proof.
  intros H1 H2. apply refines_bind; [exact H1|]. intros [e|x]; [apply refines_refl|apply H2].
Qed.
Lemma refines_efold {E A S} (f f' : S -> A -> res (E + S)) l : forall s,
  (forall s x, refines (f s x) (f' s x)) -> refines (efold f l s) (efold f' l s).
Proof.
  induction l as [|a l IH]; intros s H; cbn [efold]; [apply refines_refl|]. apply refines_ebind; auto.
Qed.
Ltac mono2 := repeat match goal with
  | |- refines ?a ?a => exact (refines_refl a)
  | |- refines (bind _ _) _ => apply refines_bind; [|intros]
  | |- refines (ebind _ _) _ => apply refines_ebind; [|intros]
  | |- refines (mflat_map _ _) _ => apply refines_mflat_map; intros
  | |- refines (mmap _ _) _ => apply refines_mmap; intros
  | |- refines (mfold _ _ _) _ => apply refines_mfold; intros
  | |- refines (efold _ _ _) _ => apply refines_efold; intros
  | |- refines (rmap_ok _ _) _ => unfold rmap_ok
  | |- refines (map_ok _ _) _ => unfold map_ok
  | |- refines (option_wrap _ _) _ => unfold option_wrap
  | |- refines (Panic _) _ => apply refines_panic
  | |- refines ((match ?b with _ => _ end) _) _ => destruct b
  | |- refines (if ?b then _ else _) _ => destruct b
  | |- refines (match ?b with _ => _ end) _ => destruct b
  | |- refines (let x := _ in _) _ => cbv zeta
  | |- _ => solve [auto with mono]
  end.

Lemma mono_state N p : refines (game_state Debug N p) (game_state Release N p).
Proof. unfold game_state, game_state_default. mono2. Qed.
Lemma mono_phase N p : refines (phase Debug N p) (phase Release N p).
Proof. pose proof mono_state. unfold phase. mono2. Qed.
Lemma mono_try_from N ps : refines (try_from Debug N ps) (try_from Release N ps).
Proof. unfold try_from. mono2. Qed.
#[global] Hint Resolve mono_state mono_phase mono_try_from : mono.
Lemma mono_vstate v : refines (vp_game_state Debug v) (vp_game_state Release v).
Proof. destruct v; apply mono_state. Qed.
Lemma mono_vphase v : refines (vp_phase Debug v) (vp_phase Release v).
Proof. destruct v; apply mono_phase. Qed.
#[global] Hint Resolve mono_vstate mono_vphase : mono.
Lemma mono_positions N p d : refines (classic_positions Debug N p d) (classic_positions Release N p d).
Proof. unfold classic_positions. mono2. Qed.
#[global] Hint Resolve mono_positions mono_nohit_rules : mono.
Lemma mono_comb n : forall k, refines (comb Debug n k) (comb Release n k).
Proof. induction n as [|n IH]; intros k; cbn [comb]; mono2. Qed.
#[global] Hint Resolve mono_comb : mono.
Lemma mono_mcomb n k : refines (mcomb Debug n k) (mcomb Release n k).
Proof. unfold mcomb. mono2. Qed.
#[global] Hint Resolve mono_mcomb : mono.
Lemma mono_dbh_step p s i : refines (dbh_step Debug p s i) (dbh_step Release p s i).
Proof. unfold dbh_step, zsub. mono2. Qed.
#[global] Hint Resolve mono_dbh_step : mono.
Lemma mono_dbhash N p : refines (dbhash Debug N p) (dbhash Release N p).
Proof. unfold dbhash, dbh_term. mono2. Qed.
Lemma mono_debug_fmt p : refines (debug_fmt Debug p) (debug_fmt Release p).
Proof. unfold debug_fmt, dbg_o. mono2. Qed.
Lemma mono_show p : refines (show Debug p) (show Release p).
Proof. unfold show, upper_row, lower_row, print_point. mono2. Qed.
Lemma mono_dice_new a b : refines (dice_new Debug a b) (dice_new Release a b).
Proof. unfold dice_new. mono2. Qed.
#[global] Hint Resolve mono_dice_new mono_dbhash mono_debug_fmt mono_show : mono.
Lemma mono_21 : refines (all_21 Debug) (all_21 Release).
Proof. unfold all_21. mono2. Qed.
#[global] Hint Resolve mono_21 : mono.
Lemma mono_key p : refines (encode_key Debug p) (encode_key Release p).
Proof. unfold encode_key. mono2. Qed.
#[global] Hint Resolve mono_key : mono.
#[global] Hint Opaque run_bits decode_key encode_key comb mcomb dbhash gnuid_decode_position gnuid_encode_position
  xgid_encode_position xgid_decode_position fibs_encode_position fibs_decode_position collect_paths
  find_steps_for_target classic_positions no_hit_rules vp_game_state all_21 u64 u8 i8 flip try_from dice_new
  fibs_point_step fibs_point_token xgid_cell_step legal_for_steps legal_steps apply_for : mono.
Lemma mono_run_bits fuel : forall s key ps pt pc b,
  refines (run_bits fuel Debug s key ps pt pc b) (run_bits fuel Release s key ps pt pc b).
Proof. induction fuel as [|f IH]; intros; cbn [run_bits]; mono2. Qed.
#[global] Hint Resolve mono_run_bits : mono.
Lemma mono_decode_key N key : refines (decode_key Debug N key) (decode_key Release N key).
Proof. unfold decode_key. mono2. Qed.
#[global] Hint Resolve mono_decode_key : mono.
Lemma mono_genc p : refines (gnuid_encode_position Debug p) (gnuid_encode_position Release p).
Proof. unfold gnuid_encode_position. mono2. Qed.
Lemma mono_gdec N t : refines (gnuid_decode_position Debug N t) (gnuid_decode_position Release N t).
Proof. unfold gnuid_decode_position. mono2. Qed.
#[global] Hint Resolve mono_genc mono_gdec : mono.
Lemma mono_gnuid_encode v : refines (gnuid_encode Debug v) (gnuid_encode Release v).
Proof. destruct v; apply mono_genc. Qed.
Lemma mono_gnuid_decode k t : refines (gnuid_decode Debug k t) (gnuid_decode Release k t).
Proof. destruct k; unfold gnuid_decode, rmap_ok; mono2. Qed.
#[global] Hint Resolve mono_gnuid_encode mono_gnuid_decode : mono.

Lemma mono_xenc p : refines (xgid_encode_position Debug p) (xgid_encode_position Release p).
Proof. unfold xgid_encode_position. mono2. Qed.
Lemma mono_xcell ps ic : refines (xgid_cell_step Debug ps ic) (xgid_cell_step Release ps ic).
Proof. unfold xgid_cell_step. mono2. Qed.
#[global] Hint Resolve mono_xenc mono_xcell : mono.
Lemma mono_xdec N t : refines (xgid_decode_position Debug N t) (xgid_decode_position Release N t).
Proof. unfold xgid_decode_position. mono2. Qed.
Lemma mono_fenc p : refines (fibs_encode_position Debug p) (fibs_encode_position Release p).
Proof. unfold fibs_encode_position. mono2. Qed.
Lemma mono_ftoken t : refines (fibs_point_token Debug t) (fibs_point_token Release t).
Proof. unfold fibs_point_token. mono2. Qed.
#[global] Hint Resolve mono_xdec mono_fenc mono_ftoken : mono.
Lemma mono_fstep tk ps i : refines (fibs_point_step Debug tk ps i) (fibs_point_step Release tk ps i).
Proof. unfold fibs_point_step. mono2. Qed.
#[global] Hint Resolve mono_fstep : mono.
Lemma mono_fdec N t : refines (fibs_decode_position Debug N t) (fibs_decode_position Release N t).
Proof. unfold fibs_decode_position. mono2. Qed.
#[global] Hint Resolve mono_fdec : mono.
Lemma mono_xgid_encode v : refines (xgid_encode Debug v) (xgid_encode Release v).
Proof. destruct v; apply mono_xenc. Qed.
Lemma mono_fibs_encode v : refines (fibs_encode Debug v) (fibs_encode Release v).
Proof. destruct v; apply mono_fenc. Qed.
Lemma mono_xgid_decode k t : refines (xgid_decode Debug k t) (xgid_decode Release k t).
Proof. destruct k; unfold xgid_decode; mono2. Qed.
Lemma mono_fibs_decode k t : refines (fibs_decode Debug k t) (fibs_decode Release k t).
Proof. destruct k; unfold fibs_decode; mono2. Qed.
Lemma mono_apply_for p d t : refines (apply_for Debug p d t) (apply_for Release p d t).
Proof.
  pose proof mono_apply_steps. pose proof mono_leftover. unfold apply_for. mono2.
Qed.
#[global] Hint Resolve mono_apply_for : mono.
Lemma mono_apply_move v d t : refines (apply_move Debug v d t) (apply_move Release v d t).
Proof. destruct v; unfold apply_move; mono2. Qed.
Lemma refines_each (t t' : nat -> res (option position)) (k k' : nat -> position -> slots -> res slots) l : forall b s,
  (forall f, refines (t f) (t' f)) -> (forall f n s, refines (k f n s) (k' f n s)) ->
  refines (each_step t k l b s) (each_step t' k' l b s).
Proof.
  induction l as [|f l IH]; intros b s H1 H2; cbn [each_step]; [apply refines_refl|].
  apply refines_bind; [apply H1|]. intros [n|]; [|apply IH; assumption].
  apply refines_bind; [apply H2|]. intros s'. apply IH; assumption.
Qed.
Lemma mono_collect legal order : forall p st s,
  refines (collect_paths Debug legal order p st s) (collect_paths Release legal order p st s).
Proof.
  induction order as [|die order IH]; intros p st s; cbn [collect_paths]; [mono2|].
  apply refines_bind; [apply refines_each; intros; [mono2|apply IH]|]. intros [b s']. mono2.
Qed.
#[global] Hint Resolve mono_collect : mono.
Lemma mono_legal_for N p d w : refines (legal_for_steps Debug N p d w) (legal_for_steps Release N p d w).
Proof. unfold legal_for_steps. mono2. Qed.
#[global] Hint Resolve mono_legal_for : mono.
Lemma mono_legal_steps v d : refines (legal_steps Debug v d) (legal_steps Release v d).
Proof. destruct v; apply mono_legal_for. Qed.
#[global] Hint Resolve mono_legal_steps : mono.
Lemma mono_legal_moves v d : refines (legal_moves Debug v d) (legal_moves Release v d).
Proof. unfold legal_moves. mono2. Qed.

Lemma refines_first_step {A} (t t' : nat -> res (option position)) (k k' : nat -> position -> res (option A)) l : forall b,
  (forall f, refines (t f) (t' f)) -> (forall f n, refines (k f n) (k' f n)) ->
  refines (first_step t k l b) (first_step t' k' l b).
Proof.
  induction l as [|f l IH]; intros b H1 H2; cbn [first_step]; [apply refines_refl|].
  apply refines_bind; [apply H1|]. intros [n|]; [|apply IH; assumption].
  apply refines_bind; [apply H2|]. intros [a|]; [apply refines_refl|]. apply IH; assumption.
Qed.
Lemma mono_find order : forall c t, refines (find_steps_for_target Debug order c t) (find_steps_for_target Release order c t).
Proof.
  induction order as [|die order IH]; intros c t; cbn [find_steps_for_target]; [mono2|].
  apply refines_bind; [apply refines_first_step; intros; mono2|]. intros [b o]. mono2.
Qed.
Lemma refines_first_order {A} (f f' : list nat -> res (option A)) l :
  (forall o, refines (f o) (f' o)) -> refines (first_order f l) (first_order f' l).
Proof.
  intros H. induction l as [|a l IH]; cbn [first_order]; [apply refines_refl|].
  apply refines_bind; [apply H|]. intros [x|]; [apply refines_refl|exact IH].
Qed.
Lemma mono_encode_for p q d : refines (encode_for Debug p q d) (encode_for Release p q d).
Proof.
  unfold encode_for. apply refines_bind; [mono2|]. intros t.
  apply refines_bind; [apply refines_first_order; intros o; apply mono_find|]. mono2.
Qed.
Lemma mono_encode_move v w d : refines (encode_move Debug v w d) (encode_move Release v w d).
Proof.
  unfold encode_move. apply refines_ebind; [|intros; apply refines_refl].
  destruct v, w; cbn [encode_steps]; first [apply mono_encode_for | apply refines_refl].
Qed.
#[global] Hint Resolve mono_apply_move mono_legal_moves mono_encode_move mono_xgid_encode mono_fibs_encode
  mono_xgid_decode mono_fibs_decode : mono.

(** Games: the rules and the dice may be the program's own in each build. *)
Lemma mono_with R R' (H : forall v d, refines (R v d) (R' v d)) g d :
  refines (game_legal_positions_with R g d) (game_legal_positions_with R' g d).
Proof. unfold game_legal_positions_with. apply H. Qed.
Lemma mono_episode {G S} R R' (D D' : dice_gen G) (P : policy S)
  (HR : forall v d, refines (R v d) (R' v d))
  (HM : forall s, refines (gen_roll_mixed D s) (gen_roll_mixed D' s))
  (HD : forall s, refines (gen_roll D s) (gen_roll D' s)) mx todo : forall ply g dg ps,
  refines (episode_loop Debug R D P mx todo ply g dg ps) (episode_loop Release R' D' P mx todo ply g dg ps).
Proof.
  induction todo as [|todo IH]; intros ply g dg ps; cbn [episode_loop]; [apply refines_refl|].
  apply refines_bind; [destruct (ply =? 0)%nat; [apply HM|apply HD]|]. intros [d dg'].
  apply refines_bind; [apply mono_with; exact HR|]. intros [|w l]; [apply refines_refl|].
  destruct (P ps (g_position g) d (w :: l)) as [i ps']. destruct (List.length (w :: l) <=? i)%nat; [apply refines_refl|].
  apply refines_bind; [apply refines_refl|]. intros q. apply refines_bind; [apply mono_vstate|].
  intros [|r]; [apply IH|apply refines_refl].
Qed.
Lemma mono_rules v d : refines (classic_rules Debug v d) (classic_rules Release v d).
Proof. apply mono_classic. Qed.
Lemma mono_nth R R' (H : forall v d, refines (R v d) (R' v d)) g d i :
  refines (apply_nth_with R g d i) (apply_nth_with R' g d i).
Proof. unfold apply_nth_with. apply refines_bind; [apply mono_with; exact H|]. mono2. Qed.

(** UBGI. *)
Lemma mono_hdice st t : refines (handle_dice Debug st t) (handle_dice Release st t).
Proof. unfold handle_dice. mono2. Qed.
#[global] Hint Resolve mono_hdice : mono.

Section Engines.
  Context {E : Type} (A B : engine E).
  Hypothesis Hname : forall e, id_name B e = id_name A e.
  Hypothesis Hversion : forall e, id_version B e = id_version A e.
  Hypothesis Hoptions : forall e, eng_options B e = eng_options A e.
  Hypothesis Hready : forall e, refines (on_ready A e) (on_ready B e).
  Hypothesis Hget : forall e k, refines (eng_get A e k) (eng_get B e k).
  Hypothesis Hset : forall e k v, refines (eng_set A e k v) (eng_set B e k v).
  Hypothesis Hmove : forall e g d, refines (choose_move A e g d) (choose_move B e g d).

  Lemma mono_hset e st k v : refines (handle_set A e st k v) (handle_set B e st k v).
  Proof. unfold handle_set. mono2; apply Hset. Qed.
  Lemma mono_hget e st k : refines (handle_get A e st k) (handle_get B e st k).
  Proof. unfold handle_get. mono2; apply Hget. Qed.
  Lemma mono_hgo e st : refines (handle_go A e st) (handle_go B e st).
  Proof. unfold handle_go. mono2; apply Hmove. Qed.
  Lemma mono_step e st l : refines (session_step Debug A e st l) (session_step Release B e st l).
  Proof.
    unfold session_step. cbv zeta. destruct (nonempty (trim l)); [|apply refines_refl].
    apply refines_bind; [|intros [[? ?] ?]; apply refines_refl].
    destruct (parse_command (trim l)); cbn [handle_command];
      try rewrite Hname, Hversion; try solve [mono2].
    - apply refines_bind; [apply mono_hget|]. mono2.
    - apply mono_hset.
    - apply refines_bind; [apply mono_hgo|]. mono2.
  Qed.
  Lemma session_new_same e : session_new B e = session_new A e.
  Proof. unfold session_new. rewrite Hoptions. reflexivity. Qed.
  Lemma mono_session input : forall e st,
    (exists more, fst (session_loop Release B e st input) = (fst (session_loop Debug A e st input) ++ more)%list) /\
    (forall x, snd (session_loop Debug A e st input) = Ret x -> session_loop Release B e st input = session_loop Debug A e st input).
  Proof.
    induction input as [|[line|] rest IH]; intros e st; cbn [session_loop].
    - split; [exists []; reflexivity|reflexivity].
    - pose proof (mono_step e st line) as R. destruct (session_step Debug A e st line) as [[[[e' st'] out] q]|k].
      + rewrite (R _ eq_refl). destruct q; [split; [exists []; reflexivity|reflexivity]|].
        destruct (IH e' st') as [[more H1] H2].
        destruct (session_loop Debug A e' st' rest) as [log r], (session_loop Release B e' st' rest) as [log' r'].
        cbn [fst snd] in *. split.
        * exists more. rewrite H1. reflexivity.
        * intros x Hx. specialize (H2 x Hx). injection H2 as -> ->. reflexivity.
      + split; [|discriminate]. cbn [fst]. eexists. reflexivity.
    - split; [exists []; reflexivity|reflexivity].
  Qed.
End Engines.

(** The programs. *)
Lemma mono_u128 z : refines (u128 Debug z) (u128 Release z).
Proof. intros y. unfold u128. destruct ((0 <=? z) && (z <? 2 ^ 128)); auto; discriminate. Qed.
#[global] Hint Resolve mono_u128 : mono.
Lemma mono_perft_count N w n : forall p, refines (perft Debug N p n w) (perft Release N p n w).
Proof. induction n as [|n IH]; intros p; cbn [perft]; mono2. Qed.
Lemma mono_run_once l : refines (run_once Debug l) (run_once Release l).
Proof. unfold run_once. mono2. Qed.
#[global] Hint Resolve mono_perft_count mono_run_once : mono.
#[global] Hint Opaque perft run_once : mono.
Lemma mono_perft_main args : refines (perft_main Debug args) (perft_main Release args).
Proof. unfold perft_main, run_single_roll, run_perft. mono2. Qed.
Lemma mono_load f p : refines (load_positions Debug f p) (load_positions Release f p).
Proof. unfold load_positions. mono2. Qed.
#[global] Hint Resolve mono_load : mono.
#[global] Hint Opaque load_positions : mono.
Lemma mono_corpus_main f c r args : refines (corpus_main Debug f c r args) (corpus_main Release f c r args).
Proof. unfold corpus_main, bench. mono2. Qed.
Lemma mono_count l : refines (count_all21_moves Debug l) (count_all21_moves Release l).
Proof. unfold count_all21_moves. mono2. Qed.
Lemma mono_from_maps N x o : refines (from_hash_maps Debug N x o) (from_hash_maps Release N x o).
Proof.
  unfold from_hash_maps. mono2. intros y H. destruct (index s n) as [w|]; [|discriminate H].
  cbn [bind] in H. destruct (debug_assert Debug (w =? 0)); [|discriminate H]. destruct y. reflexivity.
Qed.
Lemma mono_pos f x o : refines (pos_macro Debug f x o) (pos_macro Release f x o).
Proof. apply mono_from_maps. Qed.

(** The dice. *)
Lemma mono_try_dice_new a b : refines (dice_try_from Debug a b) (dice_try_from Release a b).
Proof. unfold dice_try_from. mono2. Qed.
Lemma mono_441 : refines (all_441 Debug) (all_441 Release).
Proof. unfold all_441. mono2. Qed.
Lemma mono_roll {S} (R : rng S) s : refines (fr_roll Debug R s) (fr_roll Release R s).
Proof. unfold fr_roll, fastrand_roll. mono2. Qed.
Lemma mono_roll_mixed {S} (R : rng S) s : refines (fr_roll_mixed Debug R s) (fr_roll_mixed Release R s).
Proof. unfold fr_roll_mixed, fastrand_roll_mixed. mono2. Qed.
Lemma mono_choose {S} b (R : rng S) l s : refines (fr_choose_index Debug b R l s) (fr_choose_index Release b R l s).
Proof. unfold fr_choose_index, choose_index_f32, choose_index. mono2. Qed.
Lemma mono_sample {R} (draw : R -> nat -> nat * R) t n : forall p g,
  refines (sample_loop Debug draw t n p g) (sample_loop Release draw t n p g).
Proof. induction n as [|n IH]; intros p g; cbn [sample_loop]; mono2. Qed.
Lemma mono_collect_phase {R} (draw : R -> nat -> nat * R) t c fuel g :
  refines (collect_phase_positions Debug draw t c g fuel) (collect_phase_positions Release draw t c g fuel).
Proof.
  unfold collect_phase_positions. generalize (@nil position) as out. revert g.
  induction fuel as [|fuel IH]; intros g out; cbn [collect_loop]; [mono2|].
  destruct (Datatypes.length out <? c)%nat; [|mono2]. apply refines_bind; [apply mono_sample|]. intros [o g']. apply IH.
Qed.
