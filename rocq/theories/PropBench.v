(** C77: the samples of the movegen benchmark. *)
From Verif Require Import SpecBench Bench PerftFacts GameStateFacts PropDice PropMoves PropPosition PropPerft VariantFacts GameFacts.
Unset Implicit Arguments.
Open Scope Z_scope.

Lemma played_snoc n v w u d : played n v w -> vongoing w -> valid_dice d -> vlegal d w u -> played (S n) v u.
Proof.
  intros P O V L. induction P as [v|n v w' w d' O' V' L' P IH].
  - apply (@played_S 0 v u u d); auto. constructor.
  - apply (@played_S (S n) v w' u d'); auto.
Qed.

Lemma ongoing_phase_eqb_eq a b : ongoing_phase_eqb a b = true <-> a = b.
Proof. destruct a, b; cbn; split; congruence. Qed.

Lemma rolls_valid rolls m i d w : all_21 m = Ret rolls -> index rolls i = Ret (d, w) -> valid_dice d.
Proof.
  rewrite all_21_ret. intros E I. inversion E; subst rolls.
  assert (X : In (d, w) ALL_21).
  { unfold index in I. destruct (nth_error ALL_21 i) eqn:N; inversion I; subst. eapply nth_error_In; eauto. }
  destruct (@all_21_valid (d, w) X) as [V _]. exact V.
Qed.

Lemma index_in {A} (l : list A) i a : index l i = Ret a -> In a l.
Proof. unfold index. destruct (nth_error l i) eqn:E; intros H; inversion H; subst. eapply nth_error_In; eauto. Qed.

Lemma index_range {A} (l : list A) i : (i < length l)%nat -> exists a, index l i = Ret a.
Proof. intros H. unfold index. destruct (nth_error l i) eqn:E; eauto. apply nth_error_None in E. lia. Qed.

(** Children of a well-formed position (also of a finished one, in release builds). *)
Lemma bench_child m p d l q : wf 15 p -> valid_dice d -> classic_positions m 15 p d = Ret l -> In q l ->
  wf 15 q /\ (ongoing 15 p -> vlegal d (VBackgammon p) (VBackgammon q)) /\ (~ ongoing 15 p -> ~ ongoing 15 q).
Proof.
  intros W V E I. destruct (@kids_any m 15 p d l W V E) as [-> _].
  destruct (@movegen_release 15 p d W V) as (l & El & _ & H). unfold kids in I. rewrite El in I.
  apply H in I. destruct I as (r & L & M). pose proof (legal_result_wf W V L) as Wr.
  pose proof M as M'. apply mirrored_iff in M'; [|apply Wr]. subst q.
  split; [apply flipP_wf; auto|]. split.
  - intros _. exists Backgammon, p, (flipP r), r. auto.
  - destruct L as (ds & U & P & _). destruct (plays_pips W (uses_valid V U) P) as (_ & _ & A & _ & B & _).
    pose proof (wf_off_bounds Wr) as [Q1 Q2]. pose proof (wf_off_bounds W) as [Q3 Q4].
    unfold ongoing, flipP. cbn [x_off o_off]. lia.
Qed.

Lemma over_not_ongoing m N p ph : ~ ongoing N p -> wf N p -> phase m N p = Ret ph -> exists r, ph = PGameOver r.
Proof.
  intros O W E. pose proof (wf_off_bounds W) as [Q1 Q2]. unfold phase in E.
  assert (X : forall gs, game_state m N p = Ret gs -> exists r, gs = GameOver r).
  { intros gs G. unfold game_state in G. apply bind_inv in G. destruct G as (_ & _ & G).
    destruct (Z.eqb_spec (x_off p) N).
    - destruct (0 <? o_off p); [inversion G; eauto|]. destruct (existsb _ _); inversion G; eauto.
    - destruct (Z.eqb_spec (o_off p) N); [|exfalso; apply O; split; lia].
      destruct (0 <? x_off p); [inversion G; eauto|]. destruct (existsb _ _); inversion G; eauto. }
  apply bind_inv in E. destruct E as (gs & G & E). destruct (X gs G) as [r ->]. inversion E. eauto.
Qed.

(** A finished game is never sampled. *)
Lemma sample_over {R} m (draw : R -> nat -> nat * R) t n : forall p rng o rng', wf 15 p -> ~ ongoing 15 p ->
  sample_loop m draw t n p rng = Ret (o, rng') -> o = None.
Proof.
  induction n as [|n IH]; intros p rng o rng' W O E; cbn [sample_loop] in E; [inversion E; auto|].
  apply bind_inv in E. destruct E as (rolls & Er & E). destruct (draw rng (length rolls)) as [i rng1].
  apply bind_inv in E. destruct E as ([d w] & Ei & E). pose proof (rolls_valid _ _ _ _ _ Er Ei) as V.
  apply bind_inv in E. destruct E as (l & El & E). destruct l as [|q0 l0]; [inversion E; auto|].
  destruct (draw rng1 (length (q0 :: l0))) as [j rng2].
  apply bind_inv in E. destruct E as (q & Eq & E). apply index_in in Eq.
  destruct (bench_child m p d _ q W V El Eq) as (Wq & _ & Oq). specialize (Oq O).
  apply bind_inv in E. destruct E as (ph & Ep & E).
  destruct (over_not_ongoing m 15 q ph Oq Wq Ep) as [r ->]. exact (IH q _ _ _ Wq Oq E).
Qed.

Lemma ongoing_dec N p : ongoing N p \/ ~ ongoing N p.
Proof. unfold ongoing. lia. Qed.

Lemma sample_sound {R} m (draw : R -> nat -> nat * R) t n : forall k p rng q rng', wf 15 p -> ongoing 15 p ->
  played k (start_position Backgammon) (VBackgammon p) ->
  sample_loop m draw t n p rng = Ret (Some q, rng') ->
  exists i, (1 <= i <= n)%nat /\ played (k + i) (start_position Backgammon) (VBackgammon q) /\
  wf 15 q /\ ongoing 15 q /\ phase m 15 q = Ret (POngoing t).
Proof.
  induction n as [|n IH]; intros k p rng q0 rng' W O P E; cbn [sample_loop] in E; [discriminate E|].
  apply bind_inv in E. destruct E as (rolls & Er & E). destruct (draw rng (length rolls)) as [i rng1].
  apply bind_inv in E. destruct E as ([d w] & Ei & E). pose proof (rolls_valid _ _ _ _ _ Er Ei) as V.
  apply bind_inv in E. destruct E as (l & El & E). destruct l as [|q1 l0]; [discriminate E|].
  destruct (draw rng1 (length (q1 :: l0))) as [j rng2].
  apply bind_inv in E. destruct E as (q & Eq & E). apply index_in in Eq.
  destruct (bench_child m p d _ q W V El Eq) as (Wq & Lq & _). specialize (Lq O).
  assert (Pq : played (S k) (start_position Backgammon) (VBackgammon q)).
  { apply (played_snoc k _ (VBackgammon p) _ d); auto. exists Backgammon, p. auto. }
  apply bind_inv in E. destruct E as (ph & Ep & E).
  assert (Next : sample_loop m draw t n q rng2 = Ret (Some q0, rng') -> exists i, (1 <= i <= S n)%nat /\
    played (k + i) (start_position Backgammon) (VBackgammon q0) /\ wf 15 q0 /\ ongoing 15 q0 /\ phase m 15 q0 = Ret (POngoing t)).
  { intros E'. destruct (ongoing_dec 15 q) as [Oq|Nq].
    - destruct (IH (S k) q _ _ _ Wq Oq Pq E') as (i' & Hi & P' & H). exists (S i').
      split; [lia|]. rewrite Nat.add_succ_r. auto.
    - pose proof (sample_over m draw t n q _ _ _ Wq Nq E') as X. discriminate X. }
  destruct ph as [c|r]; [|auto].
  destruct (ongoing_phase_eqb c t) eqn:Ec; [|auto]. inversion E; subst q0 rng'. apply ongoing_phase_eqb_eq in Ec. subst c.
  exists 1%nat. split; [lia|]. replace (k + 1)%nat with (S k) by lia. split; auto. split; auto. split; auto.
  destruct (ongoing_dec 15 q) as [|Nq]; auto. destruct (over_not_ongoing m 15 q _ Nq Wq Ep) as [r X]. discriminate X.
Qed.

Lemma start_bg : wf 15 BACKGAMMON /\ ongoing 15 BACKGAMMON.
Proof.
  destruct (start_wf Backgammon) as [(p & E & W) O]. change (start_position Backgammon) with (tag Backgammon BACKGAMMON) in *.
  apply tag_inj in E. destruct E as [_ <-]. rewrite vongoing_tag in O. auto.
Qed.

Lemma collect_sound {R} m (draw : R -> nat -> nat * R) t count fuel : forall out rng ps,
  (length out <= count)%nat -> Forall (fun p => from_a_game 80 p /\ has_phase t p) out ->
  collect_loop m draw t count fuel out rng = Ret (Some ps) ->
  length ps = count /\ Forall (fun p => from_a_game 80 p /\ has_phase t p) ps.
Proof.
  induction fuel as [|fuel IH]; intros out rng ps Le F E; cbn [collect_loop] in E;
    destruct (Nat.ltb_spec (length out) count) as [Lt|Ge].
  - discriminate E.
  - inversion E; subst. split; [lia|auto].
  - apply bind_inv in E. destruct E as ([q rng1] & Es & E). destruct q as [q|].
    + refine (IH _ _ _ _ _ E); [rewrite app_length; cbn [length]; lia|].
      apply Forall_app. split; auto. constructor; [|constructor]. destruct start_bg as [W O].
      destruct (sample_sound m draw t 80 0 BACKGAMMON rng q rng1 W O ltac:(constructor) Es) as (i & Hi & P & Wq & Oq & Ph).
      split; [exists i; auto|].
      destruct (@C07_phase m 15 q Wq (or_introl (proj1 Oq))) as (ph & E' & H). rewrite Ph in E'.
      inversion E'; subst. destruct t; apply H.
    + exact (IH _ _ _ Le F E).
  - inversion E; subst. split; [lia|auto].
Qed.

(** ** C77 *)

(** If sampling ends, there are as many samples as asked for, each a position in play, of the wanted phase,
    of a game that started at most 80 legal plays before. *)
Theorem C77_samples : forall {R} m (draw : R -> nat -> nat * R) t count seeded fuel ps,
  collect_phase_positions m draw t count seeded fuel = Ret (Some ps) ->
  length ps = count /\ Forall (fun p => from_a_game 80 p /\ has_phase t p) ps.
Proof. intros R m draw t count seeded fuel ps E. exact (collect_sound m draw t count fuel [] seeded ps ltac:(cbn; lia) ltac:(constructor) E). Qed.

Lemma sample_release {R} (draw : R -> nat -> nat * R) t n : draws_in_range draw -> forall p rng, wf 15 p ->
  exists r, sample_loop Release draw t n p rng = Ret r.
Proof.
  intros D. induction n as [|n IH]; intros p rng W; cbn [sample_loop]; [eauto|].
  rewrite all_21_ret, bind_ret. pose proof (D rng (length ALL_21) ltac:(vm_compute; lia)) as Di.
  destruct (draw rng (length ALL_21)) as [i rng1]. cbn [fst] in Di.
  destruct (index_range ALL_21 i Di) as ([d w] & Ei). rewrite Ei, bind_ret.
  pose proof (rolls_valid _ Release _ _ _ (all_21_ret Release) Ei) as V.
  destruct (@movegen_release 15 p d W V) as (l & El & Ne & _). rewrite El, bind_ret.
  destruct l as [|q0 l0]; [congruence|]. pose proof (D rng1 (length (q0 :: l0)) ltac:(cbn; lia)) as Dj.
  destruct (draw rng1 (length (q0 :: l0))) as [j rng2]. cbn [fst] in Dj.
  destruct (index_range (q0 :: l0) j Dj) as (q & Eq). rewrite Eq, bind_ret.
  destruct (bench_child Release p d _ q W V El (index_in _ _ _ Eq)) as (Wq & _ & _).
  assert (X : exists ph, phase Release 15 q = Ret ph).
  { destruct (ongoing_dec 15 q) as [Oq|Nq].
    - destruct (@C07_phase Release 15 q Wq (or_introl (proj1 Oq))) as (ph & E & _). eauto.
    - pose proof (wf_off_bounds Wq) as [Q1 Q2]. unfold phase, game_state. cbn [debug_assert]. rewrite bind_ret.
      unfold ongoing in Nq.
      destruct (Z.eqb_spec (x_off q) 15); [destruct (0 <? o_off q); [|destruct (existsb _ _)]; cbn [bind]; eauto|].
      destruct (Z.eqb_spec (o_off q) 15); [destruct (0 <? x_off q); [|destruct (existsb _ _)]; cbn [bind]; eauto|lia]. }
  destruct X as (ph & ->). rewrite bind_ret. destruct ph as [c|r]; [destruct (ongoing_phase_eqb c t)|]; eauto.
Qed.

(** In a release build sampling never panics. *)
Theorem C77_release_no_panic : forall {R} (draw : R -> nat -> nat * R) t count seeded fuel, draws_in_range draw ->
  exists r, collect_phase_positions Release draw t count seeded fuel = Ret r.
Proof.
  intros R draw t count seeded fuel D. unfold collect_phase_positions. generalize (@nil position) as out.
  revert seeded. induction fuel as [|fuel IH]; intros rng out; cbn [collect_loop];
    destruct (length out <? count)%nat; eauto.
  destruct (sample_release draw t 80 D BACKGAMMON rng (proj1 start_bg)) as ([q rng1] & ->). rewrite bind_ret. apply IH.
Qed.

(** After the first play of a game the sides are still in contact. *)
Definition opening_contact (m : mode) : bool :=
  forallb (fun e => match classic_positions m 15 BACKGAMMON (fst e) with
    | Ret l => forallb (fun q => match phase m 15 q with Ret (POngoing Contact) => true | _ => false end) l
    | Panic _ => false end) ALL_21.
Lemma opening_contact_ok m : opening_contact m = true.
Proof. destruct m; vm_compute; reflexivity. Qed.

Lemma sample_contact {R} m (draw : R -> nat -> nat * R) n rng : draws_in_range draw ->
  exists q rng', sample_loop m draw Contact (S n) BACKGAMMON rng = Ret (Some q, rng') /\
  exists d, valid_dice d /\ vlegal d (start_position Backgammon) (VBackgammon q).
Proof.
  intros D. cbn [sample_loop]. destruct start_bg as [W O].
  rewrite all_21_ret, bind_ret. pose proof (D rng (length ALL_21) ltac:(vm_compute; lia)) as Di.
  destruct (draw rng (length ALL_21)) as [i rng1]. cbn [fst] in Di.
  destruct (index_range ALL_21 i Di) as ([d w] & Ei). rewrite Ei, bind_ret.
  pose proof (rolls_valid _ m _ _ _ (all_21_ret m) Ei) as V.
  destruct (@movegen_correct 15 m BACKGAMMON d W O V) as (l & El & Ne & H).
  change (generate_legal_positions m 15 BACKGAMMON d) with (classic_positions m 15 BACKGAMMON d) in El.
  rewrite El, bind_ret. destruct l as [|q0 l0]; [congruence|].
  pose proof (D rng1 (length (q0 :: l0)) ltac:(cbn; lia)) as Dj.
  destruct (draw rng1 (length (q0 :: l0))) as [j rng2]. cbn [fst] in Dj.
  destruct (index_range (q0 :: l0) j Dj) as (q & Eq). rewrite Eq, bind_ret. apply index_in in Eq.
  pose proof (opening_contact_ok m) as OC. unfold opening_contact in OC. rewrite forallb_forall in OC.
  specialize (OC (d, w) (index_in _ _ _ Ei)). cbn [fst] in OC. rewrite El in OC.
  rewrite forallb_forall in OC. specialize (OC q Eq).
  destruct (phase m 15 q) as [[[]|]|]; try discriminate OC. rewrite bind_ret. cbn [ongoing_phase_eqb].
  exists q, rng2. split; auto. exists d. split; auto.
  destruct (bench_child m BACKGAMMON d _ q W V El Eq) as (_ & Lq & _). exact (Lq O).
Qed.

Lemma collect_contact {R} m (draw : R -> nat -> nat * R) count fuel : draws_in_range draw -> forall out rng,
  (count <= fuel + length out)%nat -> (length out <= count)%nat ->
  Forall (fun q => exists d, valid_dice d /\ vlegal d (start_position Backgammon) (VBackgammon q)) out ->
  exists ps, collect_loop m draw Contact count fuel out rng = Ret (Some ps) /\ length ps = count /\
  Forall (fun q => exists d, valid_dice d /\ vlegal d (start_position Backgammon) (VBackgammon q)) ps.
Proof.
  intros D. induction fuel as [|fuel IH]; intros out rng F L H; cbn [collect_loop];
    destruct (Nat.ltb_spec (length out) count) as [Lt|Ge]; try (exists out; split; [auto|split; [lia|auto]]; fail).
  - exfalso. cbn in F. lia.
  - destruct (sample_contact m draw 79 rng D) as (q & rng1 & E & X). rewrite E, bind_ret.
    apply IH; rewrite ?app_length; cbn [length]; try lia. apply Forall_app. split; auto.
Qed.

(** Sampling contact positions always ends, in both builds, after as many games as samples: every sample
    is the position after a single play from the start. *)
Theorem C77_contact_is_first_play : forall {R} m (draw : R -> nat -> nat * R) count seeded fuel,
  draws_in_range draw -> (count <= fuel)%nat ->
  exists ps, collect_phase_positions m draw Contact count seeded fuel = Ret (Some ps) /\ length ps = count /\
  Forall (fun q => exists d, valid_dice d /\ vlegal d (start_position Backgammon) (VBackgammon q)) ps.
Proof.
  intros R m draw count seeded fuel D F. apply collect_contact; auto; cbn [length]; lia.
Qed.

(** The number measured is the number of listed positions over the 21 rolls. *)
Theorem C77_count : forall m ps, Forall (fun p => wf 15 p /\ ongoing 15 p) ps ->
  exists ns, Forall2 (fun p n => lines_of m 15 p 1 false n) ps ns /\
  forall r, count_all21_moves m ps = Ret r <-> total_is m (Z.of_nat (list_sum ns)) r.
Proof. intros m ps F. exact (@C50_run_once m ps F). Qed.

Example C77_ex : draws_in_range (fun r n => (Nat.modulo r n, S r)).
Proof. intros r n H. cbn [fst]. apply Nat.mod_upper_bound. lia. Qed.
Example C77_ex_contact : exists ps, collect_phase_positions Debug (fun r n => (Nat.modulo r n, S r)) Contact 3 7%nat 3 = Ret (Some ps).
Proof. eexists. vm_compute. reflexivity. Qed.

(** A debug build can panic while it samples races: the loop plays on after a game that ended without one
    (here x bears off everything while o keeps four checkers on x's one-point). *)
Definition scripted (r : list nat) (n : nat) : nat * list nat :=
  match r with a :: r' => (Nat.min a (pred n), r') | [] => (0%nat, []) end.
Definition ex_script : list nat :=
  [20; 10; 1; 5; 20; 0; 1; 0; 20; 0; 1; 0; 15; 2; 1; 0; 20; 0; 1; 0; 15; 1; 1; 0; 15; 0; 1; 0; 20; 0; 1; 49; 20; 0; 1; 0;
   15; 0; 1; 0; 20; 0; 1; 0; 20; 0]%nat.
Theorem C77_debug_can_panic : exists (draw : list nat -> nat -> nat * list nat) seeded,
  draws_in_range draw /\ collect_phase_positions Debug draw Race 1 seeded 1 = Panic AssertFail.
Proof.
  exists scripted, ex_script. split; [|vm_compute; reflexivity].
  intros [|a r] n H; cbn [scripted fst]; lia.
Qed.
