(** Property C93: which lines of a command stream leave no trace.  Read with SpecStream.v. *)
From Coq Require Import Strings.String.
From Verif Require Import SpecStream UbgiFacts PropIdentity PropUbgi PropReplies.
Unset Implicit Arguments.
Open Scope Z_scope.

(** ** Walking through part of a stream *)
Section Walk.
Context {E : Type} (m : mode) (A : engine E).
Inductive outcome := Over (r : res (E * session)) | On (e : E) (st : session).
Fixpoint walk (e : E) (st : session) (c : list str) : list (str * list str) * outcome :=
  match c with
  | [] => ([], On e st)
  | line :: c' =>
      match session_step m A e st line with
      | Panic k => ([], Over (Panic k))
      | Ret (e', st', out, q) =>
          if q then ([(line, out)], Over (Ret (e', st')))
          else let '(log, x) := walk e' st' c' in ((line, out) :: log, x)
      end
  end.
Lemma loop_walk : forall c e st rest, session_loop m A e st (map Some c ++ rest) =
  match walk e st c with
  | (log, Over r) => (log, r)
  | (log, On e' st') => let '(l, r) := session_loop m A e' st' rest in (log ++ l, r)
  end.
Proof.
  induction c as [|line c IH]; intros e st rest; cbn [map app walk session_loop].
  - destruct (session_loop m A e st rest); reflexivity.
  - destruct (session_step m A e st line) as [[[[e' st'] out] q]|k]; [|reflexivity].
    destruct q; [reflexivity|]. rewrite IH. destruct (walk e' st' c) as [log [r|e2 st2]]; [reflexivity|].
    destruct (session_loop m A e2 st2 rest); reflexivity.
Qed.
Lemma walk_length : forall c e st log x, walk e st c = (log, x) ->
  match x with On _ _ => List.length log = List.length c | Over _ => (List.length log <= List.length c)%nat end.
Proof.
  induction c as [|line c IH]; intros e st log x W; cbn [walk] in W.
  - inversion W; subst. reflexivity.
  - destruct (session_step m A e st line) as [[[[e' st'] out] q]|k]; [|inversion W; subst; cbn; lia].
    destruct q; [inversion W; subst; cbn; lia|].
    destruct (walk e' st' c) as [l y] eqn:W'. inversion W; subst. apply IH in W'. destruct x; cbn [List.length]; lia.
Qed.
Lemma walk_reaches e0 : forall c h0 e st log e' st', reaches m A e0 h0 e st -> walk e st c = (log, On e' st') ->
  reaches m A e0 (h0 ++ log) e' st'.
Proof.
  induction c as [|line c IH]; intros h0 e st log e' st' R W; cbn [walk] in W.
  - inversion W; subst. rewrite app_nil_r. exact R.
  - destruct (session_step m A e st line) as [[[[e1 st1] out] q]|k] eqn:S; [|inversion W].
    destruct q; [inversion W|]. destruct (walk e1 st1 c) as [l y] eqn:W'. inversion W; subst.
    change ((line, out) :: l) with ([(line, out)] ++ l). rewrite app_assoc. eapply IH; [|exact W'].
    econstructor; eauto.
Qed.
(** Two sessions in step. *)
Definition steps_alike (R : session -> session -> Prop) (line : str) : Prop := forall e st st', R st st' ->
  match session_step m A e st line with
  | Panic k => session_step m A e st' line = Panic k
  | Ret (e1, st1, out, q) => exists st1', session_step m A e st' line = Ret (e1, st1', out, q) /\ R st1 st1'
  end.
Lemma walk_alike R : forall c e st st', Forall (steps_alike R) c -> Forall (fun l => ~ is_line (lit "quit") l) c -> R st st' ->
  match walk e st c with
  | (log, Over r) => walk e st' c = (log, Over r)
  | (log, On e1 st1) => exists st1', walk e st' c = (log, On e1 st1') /\ R st1 st1'
  end.
Proof.
  induction c as [|line c IH]; intros e st st' F Q R0; cbn [walk]; [eauto|].
  inversion F as [|? ? F1 F2]; inversion Q as [|? ? Q1 Q2]; subst. specialize (F1 e st st' R0).
  destruct (session_step m A e st line) as [[[[e1 st1] out] q]|k] eqn:S; [|rewrite F1; reflexivity].
  destruct F1 as (st1' & -> & R1).
  destruct q.
  { exfalso. apply Q1. apply quit_iff. apply step_inv in S. destruct S as [(_ & _ & _ & _ & X)|(_ & _ & X)]; [discriminate|].
    apply X. reflexivity. }
  specialize (IH e1 st1 st1' F2 Q2 R1).
  destruct (walk e1 st1 c) as [log [r|e2 st2]]; [rewrite IH; reflexivity|].
  destruct IH as (st2' & -> & R2). eauto.
Qed.
End Walk.
Arguments Over {E}. Arguments On {E}.

(** ** Logs *)
Lemma drop_mid {A} (a : list A) x b n : n = List.length a -> drop_nth n (a ++ x :: b) = a ++ b.
Proof.
  intros ->. unfold drop_nth. rewrite firstn_app, firstn_all, Nat.sub_diag. cbn [firstn]. rewrite app_nil_r.
  f_equal. rewrite skipn_app. rewrite skipn_all2 by lia. replace (S (List.length a) - List.length a)%nat with 1%nat by lia. reflexivity.
Qed.
Lemma drop_short {A} (l : list A) n : (List.length l <= n)%nat -> drop_nth n l = l.
Proof. intros H. unfold drop_nth. rewrite firstn_all2 by lia. rewrite skipn_all2 by lia. apply app_nil_r. Qed.
Lemma swap_mid {A} (a : list A) x y b n : n = List.length a -> swap_nth n (a ++ x :: y :: b) = a ++ y :: x :: b.
Proof.
  intros ->. unfold swap_nth. rewrite skipn_app, skipn_all, Nat.sub_diag. cbn [skipn app].
  rewrite firstn_app, firstn_all, Nat.sub_diag. cbn [firstn]. rewrite app_nil_r. reflexivity.
Qed.
Lemma nth_mid {A} (a : list A) x b : nth_error (a ++ x :: b) (List.length a) = Some x.
Proof. rewrite nth_error_app2 by lia. rewrite Nat.sub_diag. reflexivity. Qed.

(** ** Steps that change nothing *)
Lemma position_cmd line : position_line line ->
  (exists id, cmd_of line = CPositionGnubgid id) \/ cmd_of line = CPositionXgid \/ cmd_of line = CPositionUnknown.
Proof.
  intros (r & S). apply stripped_iff in S. unfold cmd_of. rewrite (@parse_position _ r (eq_sym S)).
  destruct (strip_prefix _ _); [eauto|]. destruct (_ || _); auto.
Qed.
Lemma blanks_trim line : only_blanks line <-> trim line = [].
Proof. rewrite blank_trim. reflexivity. Qed.
Lemma cube_cmd line : is_line (lit "go cube") line <-> cmd_of line = CGoCube.
Proof. plain_line. Qed.
Lemma turn_cmd line : is_line (lit "go turn") line <-> cmd_of line = CGoTurn.
Proof. plain_line. Qed.
Lemma not_quit_false {E} m (A : engine E) e st line e' st' out q : session_step m A e st line = Ret (e', st', out, q) ->
  cmd_of line <> CQuit -> q = false.
Proof.
  intros S N. apply step_inv in S. destruct S as [(_ & _ & _ & _ & ->)|(_ & _ & Q)]; [auto|].
  destruct q; [|reflexivity]. exfalso. apply N, Q. reflexivity.
Qed.
Lemma asks_same {E} m (A : engine E) e st line e' st' out q : only_asks line ->
  session_step m A e st line = Ret (e', st', out, q) -> e' = e /\ st' = st /\ q = false.
Proof.
  intros O S. pose proof (not_quit_false _ _ _ _ _ _ _ _ _ S) as NQ.
  apply step_inv in S. destruct S as [(_ & -> & -> & _ & ->)|(NB & H & Q)]; [auto|].
  assert (K : cmd_of line = CUbgi \/ cmd_of line = CKeys \/ (exists k, cmd_of line = CGet k) \/ cmd_of line = CGoCube \/
     cmd_of line = CGoTurn \/ cmd_of line = CPositionXgid \/ cmd_of line = CPositionUnknown \/ cmd_of line = CUnknown).
  { destruct O as [O|[O|[O|[(k & O)|[O|[O|[(P & N)|O]]]]]]].
    - exfalso. apply NB. apply blanks_trim. exact O.
    - apply ubgi_iff in O. auto.
    - apply keys_iff in O. auto.
    - apply get_line_iff in O. eauto.
    - apply cube_cmd in O. auto 10.
    - apply turn_cmd in O. auto 10.
    - destruct (position_cmd _ P) as [(id & X)|X]; [|tauto]. exfalso. apply (N id). apply gnubgid_line_iff. exact X.
    - do 7 right. rewrite known_iff in O. destruct (cmd_of line); try reflexivity; exfalso; apply O; discriminate. }
  destruct K as [K|[K|[(k & K)|[K|[K|[K|[K|K]]]]]]]; rewrite K in *; cbn [handle_command] in H.
  3: destruct (handle_get A e st k) as [o|]; cbn [bind] in H; [|discriminate].
  all: inversion H; subst; repeat split; apply NQ; discriminate.
Qed.
Lemma down_same {E} m (A : engine E) e0 h e st line e' st' out q : reaches m A e0 h e st ->
  session_step m A e st line = Ret (e', st', out, q) -> turned_down (eng_options A e0) line out -> e' = e /\ st' = st /\ q = false.
Proof.
  intros R S T. pose proof (i_specs (reaches_invariant R)) as SP.
  pose proof (not_quit_false _ _ _ _ _ _ _ _ _ S) as NQ.
  apply step_inv in S. destruct S as [(_ & -> & -> & _ & ->)|(NB & H & Q)]; [auto|].
  destruct T as [(NE & [(r & D)|[P|(t & D)]])|(key & t & D & T)].
  - apply dice_line_iff in D. rewrite D in *. cbn [handle_command] in H.
    destruct (handle_dice_iff m st r) as [(a & b & d & _ & _ & _ & X)|(_ & X)]; rewrite X in H; cbn [bind] in H; inversion H; subst;
      [congruence|]. repeat split; apply NQ; discriminate.
  - destruct (position_cmd _ P) as [(id & X)|[X|X]]; rewrite X in *; cbn [handle_command] in H;
      try (inversion H; subst; repeat split; apply NQ; discriminate).
    destruct (gnuid_decode m (s_variant st) (trim id)) as [[er|p]|]; cbn [bind] in H; [|destruct (set_position _ _)|discriminate];
      inversion H; subst; [|congruence]. repeat split; apply NQ; discriminate.
  - apply set_line_iff in D. rewrite D in *. cbn [handle_command] in H. unfold handle_set in H.
    change (lit "game.variant") with GV in *. replace (str_eqb GV GV) with true in H by reflexivity.
    destruct (_ || _); [inversion H; subst; repeat split; apply NQ; discriminate|].
    destruct (variant_from_str t); inversion H; subst; [congruence|]. repeat split; apply NQ; discriminate.
  - apply set_line_iff in D. rewrite D in *. cbn [handle_command] in H. unfold handle_set in H.
    destruct (_ || _) eqn:B; [inversion H; subst; repeat split; apply NQ; discriminate|].
    apply orb_false_iff in B. destruct B as (B1 & B2). apply negb_false_iff in B1, B2.
    destruct T as [->|[->|(G & T)]]; [discriminate|discriminate|].
    destruct (str_eqb key (lit "game.variant")) eqn:G'; [apply str_eqb_eq in G'; contradiction|].
    destruct (find _ _) as [o|] eqn:F; [|inversion H; subst; repeat split; apply NQ; discriminate].
    rewrite SP in F. apply find_declared in F.
    destruct (parse_value o t) as [er|v] eqn:V; [inversion H; subst; repeat split; apply NQ; discriminate|].
    exfalso. apply parse_value_iff in V. exact (T o v F V).
Qed.

(** ** C93 *)

(** Nothing is decided by what comes later: the replies to the lines read so far are the same whatever follows. *)
Theorem C93_causal : forall E m (A : engine E) e0 a b,
  exists more, fst (run_ubgi_stdio m A e0 (a ++ b)) = fst (run_ubgi_stdio m A e0 a) ++ more.
Proof.
  intros E m A e0 a b. unfold run_ubgi_stdio. generalize (session_new A e0) as st. revert e0.
  induction a as [|[line|] a IH]; intros e st; cbn [app session_loop fst].
  - eexists. reflexivity.
  - destruct (session_step m A e st line) as [[[[e' st'] out] q]|k]; [|exists []; reflexivity].
    destruct q; [exists []; reflexivity|]. destruct (IH e' st') as (more & X).
    destruct (session_loop m A e' st' (a ++ b)) as [l1 r1], (session_loop m A e' st' a) as [l2 r2]. cbn [fst] in X |- *.
    exists more. rewrite X. reflexivity.
  - exists []. reflexivity.
Qed.

(** A question, or a line that was turned down, can be left out: all other lines get the same replies and the session
    ends in the same way, in the same state. *)
Theorem C93_left_out : forall E m (A : engine E) e0 a line b log r out,
  run_ubgi_stdio m A e0 (map Some a ++ Some line :: b) = (log, r) ->
  nth_error log (List.length a) = Some (line, out) ->
  only_asks line \/ turned_down (eng_options A e0) line out ->
  run_ubgi_stdio m A e0 (map Some a ++ b) = (drop_nth (List.length a) log, r).
Proof.
  intros E m A e0 a line b log r out X N T. unfold run_ubgi_stdio in *. rewrite loop_walk in X |- *.
  destruct (walk m A e0 (session_new A e0) a) as [la [ra|e st]] eqn:W; pose proof (walk_length m A _ _ _ _ _ W) as LW; cbn beta iota in LW.
  { inversion X; subst. exfalso. assert (nth_error log (List.length a) <> None) by congruence. apply nth_error_Some in H. lia. }
  pose proof (walk_reaches m A e0 _ _ _ _ _ _ _ (reaches_start m A e0) W) as R. cbn [app] in R.
  cbn [session_loop] in X. destruct (session_step m A e st line) as [[[[e' st'] o] q]|k] eqn:S.
  2: { inversion X; subst. exfalso. rewrite app_nil_r in N. assert (nth_error la (List.length a) <> None) by congruence.
       apply nth_error_Some in H. lia. }
  assert (o = out).
  { destruct q; [|destruct (session_loop m A e' st' b)]; inversion X; subst; rewrite <- LW, nth_mid in N; congruence. }
  subst o.
  assert (K : e' = e /\ st' = st /\ q = false).
  { destruct T as [T|T]; [eapply asks_same|eapply down_same]; eauto. }
  destruct K as (-> & -> & ->). destruct (session_loop m A e st b) as [l2 r2]. inversion X; subst.
  rewrite drop_mid by auto. reflexivity.
Qed.

(** ** Sessions that differ in the dice, or in the position, only *)
Definition but_dice (st st' : session) : Prop := exists d, st' = with_game st (s_variant st) (s_game st) d.
Definition but_game (st st' : session) : Prop := g_variant (s_game st) = s_variant st /\
  exists g, g_variant g = s_variant st /\ st' = with_game st (s_variant st) g (s_dice st).

Lemma step_handle {E} m (A : engine E) (R : session -> session -> Prop) line :
  (forall e st st', R st st' ->
     match handle_command m A e st (cmd_of line) with
     | Panic k => handle_command m A e st' (cmd_of line) = Panic k
     | Ret (e1, st1, out) => exists st1', handle_command m A e st' (cmd_of line) = Ret (e1, st1', out) /\ R st1 st1'
     end) -> steps_alike m A R line.
Proof.
  intros H e st st' R0. destruct (list_eq_dec Z.eq_dec (trim line) []) as [B|B].
  { rewrite !step_blank by exact B. eauto. }
  rewrite !step_cmd by exact B. specialize (H e st st' R0).
  destruct (handle_command m A e st (cmd_of line)) as [[[e1 st1] out]|k]; cbn [bind].
  - destruct H as (st1' & -> & R1). cbn [bind]. eauto.
  - rewrite H. reflexivity.
Qed.
Lemma dice_alike {E} m (A : engine E) line : ~ go_line line -> steps_alike m A but_dice line.
Proof.
  intros G. apply step_handle. intros e st st' (d & ->). rewrite go_iff in G.
  destruct (cmd_of line) as [| | | |key|key v|id| | |rest| | | | |] eqn:C; cbn [handle_command]; try contradiction;
    try (eexists; split; [reflexivity|exists d; reflexivity]).
  - destruct (on_ready A e) as [[e1 [er|u]]|k]; cbn [bind]; try reflexivity; (eexists; split; [reflexivity|exists d; reflexivity]).
  - eexists. split; [reflexivity|]. exists None. reflexivity.
  - unfold handle_get. cbn [with_game s_variant s_option_values].
    destruct (str_eqb key _); cbn [bind]; [eexists; split; [reflexivity|exists d; reflexivity]|].
    destruct (values_get key _); cbn [bind]; [eexists; split; [reflexivity|exists d; reflexivity]|].
    destruct (eng_get A e key) as [[v|]|k]; cbn [bind]; try reflexivity; (eexists; split; [reflexivity|exists d; reflexivity]).
  - unfold handle_set. destruct (_ || _); [eexists; split; [reflexivity|exists d; reflexivity]|].
    destruct (str_eqb key _).
    { destruct (variant_from_str v); (eexists; split; [reflexivity|exists d; reflexivity]). }
    cbn [with_game s_option_specs]. destruct (find _ _) as [o|]; [|eexists; split; [reflexivity|exists d; reflexivity]].
    destruct (parse_value o v) as [er|w]; [eexists; split; [reflexivity|exists d; reflexivity]|].
    destruct (eng_set A e key w) as [[e1 [er|u]]|k]; cbn [bind]; try reflexivity; (eexists; split; [reflexivity|exists d; reflexivity]).
  - cbn [with_game s_variant s_game s_dice]. destruct (gnuid_decode m (s_variant st) (trim id)) as [[er|p]|]; cbn [bind]; try reflexivity;
      [eexists; split; [reflexivity|exists d; reflexivity]|].
    destruct (set_position (s_game st) p) as [x g]. eexists; split; [reflexivity|exists d; reflexivity].
  - unfold handle_dice. 
    destruct (split_ws rest) as [|w1 [|w2 [|w3 ws]]]; cbn [bind]; try (eexists; split; [reflexivity|exists d; reflexivity]).
    destruct (parse_usize w1) as [x|]; [|eexists; split; [reflexivity|exists d; reflexivity]].
    destruct (parse_usize w2) as [y|]; [|eexists; split; [reflexivity|exists d; reflexivity]].
    destruct (_ && _); [|eexists; split; [reflexivity|exists d; reflexivity]].
    destruct (dice_new _ _ _) as [nd|]; cbn [bind]; [|reflexivity].
    eexists; split; [reflexivity|exists (Some nd); reflexivity].
Qed.
Lemma set_position_same g g' p : g_variant g = g_variant g' -> vp_variant p = g_variant g ->
  snd (set_position g p) = snd (set_position g' p).
Proof.
  intros V P. unfold set_position. rewrite <- V, P. destruct (g_variant g); reflexivity.
Qed.
Lemma set_position_variant g p : g_variant (snd (set_position g p)) = g_variant g.
Proof. unfold set_position. destruct (negb _); reflexivity. Qed.
Ltac same_game V g Vg := eexists; split; [reflexivity|split; [exact V|exists g; split; [exact Vg|reflexivity]]].
Lemma game_alike {E} m (A : engine E) line : ~ go_line line -> steps_alike m A but_game line.
Proof.
  intros G. apply step_handle. intros e st st' (V & g & Vg & ->). rewrite go_iff in G.
  destruct (cmd_of line) as [| | | |key|key v|id| | |rest| | | | |] eqn:C; cbn [handle_command]; try contradiction;
    try same_game V g Vg.
  - destruct (on_ready A e) as [[e1 [er|u]]|k]; cbn [bind]; try reflexivity; same_game V g Vg.
  - eexists. split; [reflexivity|]. split; [reflexivity|]. exists (game_new (s_variant st)). split; reflexivity.
  - unfold handle_get. cbn [with_game s_variant s_option_values].
    destruct (str_eqb key _); cbn [bind]; [same_game V g Vg|].
    destruct (values_get key _); cbn [bind]; [same_game V g Vg|].
    destruct (eng_get A e key) as [[v|]|k]; cbn [bind]; try reflexivity; same_game V g Vg.
  - unfold handle_set. destruct (_ || _); [same_game V g Vg|].
    destruct (str_eqb key _).
    { destruct (variant_from_str v) as [w|]; [|same_game V g Vg]. eexists. split; [reflexivity|].
      split; [reflexivity|]. exists (game_new w). split; reflexivity. }
    cbn [with_game s_option_specs]. destruct (find _ _) as [o|]; [|same_game V g Vg].
    destruct (parse_value o v) as [er|w]; [same_game V g Vg|].
    destruct (eng_set A e key w) as [[e1 [er|u]]|k]; cbn [bind]; try reflexivity; same_game V g Vg.
  - cbn [with_game s_variant s_game s_dice].
    destruct (gnuid_decode m (s_variant st) (trim id)) as [[er|p]|] eqn:D; cbn [bind]; try reflexivity; [same_game V g Vg|].
    pose proof (decode_variant _ _ _ D) as P.
    assert (K : snd (set_position (s_game st) p) = snd (set_position g p)) by (apply set_position_same; congruence).
    pose proof (set_position_variant (s_game st) p) as KV. pose proof (set_position_variant g p) as KV'.
    destruct (set_position (s_game st) p) as [x g1], (set_position g p) as [y g2]. cbn [snd] in K, KV, KV'. subst g2.
    eexists. split; [reflexivity|]. split; [cbn; congruence|]. exists g1. split; [cbn; congruence|reflexivity].
  - unfold handle_dice.
    destruct (split_ws rest) as [|w1 [|w2 [|w3 ws]]]; cbn [bind]; try same_game V g Vg.
    destruct (parse_usize w1) as [x|]; [|same_game V g Vg].
    destruct (parse_usize w2) as [y|]; [|same_game V g Vg].
    destruct (_ && _); [|same_game V g Vg].
    destruct (dice_new _ _ _) as [nd|]; cbn [bind]; [|reflexivity]. same_game V g Vg.
Qed.

(** The line that replaces. *)
Lemma replace_dice {E} m (A : engine E) e st st' line : but_dice st st' -> replaces_dice line ->
  session_step m A e st line = session_step m A e st' line.
Proof.
  intros (d & ->) [(r & a & b & D & T)|N].
  - apply dice_line_iff in D. rewrite !step_cmd by (apply cmd_nonblank; rewrite D; discriminate). rewrite D. cbn [handle_command].
    destruct (handle_dice_iff m st r) as [(x & y & dd & T1 & S1 & _ & X)|(X & _)]; [|exfalso; exact (X a b T)].
    destruct (handle_dice_iff m (with_game st (s_variant st) (s_game st) d) r) as [(x' & y' & dd' & T2 & S2 & _ & X')|(X' & _)];
      [|exfalso; exact (X' a b T)].
    destruct (two_dice_fun T1 T2) as (<- & <-). rewrite X, X', (shows_fun _ _ _ _ S1 S2). reflexivity.
  - apply newgame_iff in N. rewrite !step_cmd by (apply cmd_nonblank; rewrite N; discriminate). rewrite N. reflexivity.
Qed.
Lemma replace_game {E} m (A : engine E) e st st' line e1 st1 q : but_game st st' -> replaces_position line ->
  session_step m A e st line = Ret (e1, st1, [], q) -> session_step m A e st' line = Ret (e1, st1, [], q).
Proof.
  intros (V & g & Vg & ->) [(id & D)|[D|(t & D)]].
  - apply gnubgid_line_iff in D. rewrite !step_cmd by (apply cmd_nonblank; rewrite D; discriminate). rewrite D. cbn [handle_command].
    cbn [with_game s_variant s_game s_dice].
    destruct (gnuid_decode m (s_variant st) (trim id)) as [[er|p]|] eqn:DD; cbn [bind]; try discriminate.
    pose proof (decode_variant _ _ _ DD) as P.
    assert (K : snd (set_position (s_game st) p) = snd (set_position g p)) by (apply set_position_same; congruence).
    destruct (set_position (s_game st) p) as [x g1], (set_position g p) as [y g2]. cbn [snd] in K. subst g2. auto.
  - apply newgame_iff in D. rewrite !step_cmd by (apply cmd_nonblank; rewrite D; discriminate). rewrite D. auto.
  - apply set_line_iff in D. rewrite !step_cmd by (apply cmd_nonblank; rewrite D; discriminate). rewrite D. cbn [handle_command].
    unfold handle_set. destruct (_ || _); [discriminate|]. change (lit "game.variant") with GV. replace (str_eqb GV GV) with true by reflexivity.
    destruct (variant_from_str t); cbn [bind]; [auto|discriminate].
Qed.

Lemma idle_alike {E} m (A : engine E) (R : session -> session -> Prop) c : (forall line, ~ go_line line -> steps_alike m A R line) ->
  Forall idle c -> Forall (steps_alike m A R) c /\ Forall (fun l => ~ is_line (lit "quit") l) c.
Proof. intros H F. split; eapply Forall_impl; try exact F; intros l (G & Q); auto. Qed.
Lemma overwritten {E} m (A : engine E) (R : session -> session -> Prop) e0 a l1 c l2 b log r :
  (forall line, ~ go_line line -> steps_alike m A R line) -> Forall idle c ->
  (forall h e st e' st' o q, reaches m A e0 h e st -> session_step m A e st l1 = Ret (e', st', o, q) ->
     nth_error log (List.length a) = Some (l1, o) -> e' = e /\ q = false /\ R st' st) ->
  (forall e st st' e1 st1 o q, R st st' -> session_step m A e st l2 = Ret (e1, st1, o, q) ->
     nth_error log (List.length a + 1 + List.length c) = Some (l2, o) -> session_step m A e st' l2 = Ret (e1, st1, o, q)) ->
  run_ubgi_stdio m A e0 (map Some a ++ Some l1 :: map Some c ++ Some l2 :: b) = (log, r) ->
  (exists o, nth_error log (List.length a + 1 + List.length c) = Some (l2, o)) ->
  run_ubgi_stdio m A e0 (map Some a ++ map Some c ++ Some l2 :: b) = (drop_nth (List.length a) log, r).
Proof.
  intros AL ID H1 H2 X (o2 & N2). unfold run_ubgi_stdio in *. rewrite loop_walk in X |- *.
  assert (LN : (List.length a + 1 + List.length c < List.length log)%nat) by (apply nth_error_Some; congruence).
  destruct (walk m A e0 (session_new A e0) a) as [la [ra|e st]] eqn:W; pose proof (walk_length m A _ _ _ _ _ W) as LW; cbn beta iota in LW.
  { inversion X; subst. lia. }
  pose proof (walk_reaches m A e0 _ _ _ _ _ _ _ (reaches_start m A e0) W) as R0. cbn [app] in R0.
  cbn [session_loop] in X. destruct (session_step m A e st l1) as [[[[e' st'] o] q]|k] eqn:S1.
  2: { inversion X; subst. rewrite app_nil_r in LN. lia. }
  assert (N1 : nth_error log (List.length a) = Some (l1, o)).
  { destruct q; [|destruct (session_loop m A e' st' (map Some c ++ Some l2 :: b))]; inversion X; subst; rewrite <- LW, nth_mid; reflexivity. }
  destruct (H1 _ _ _ _ _ _ _ R0 S1 N1) as (-> & -> & R1).
  destruct (idle_alike m A R c AL ID) as (F1 & F2).
  rewrite loop_walk in X |- *. pose proof (walk_alike m A R c e st' st F1 F2 R1) as K.
  destruct (walk m A e st' c) as [lc [rc|e2 st2]] eqn:WC; pose proof (walk_length m A _ _ _ _ _ WC) as LC; cbn beta iota in LC.
  { inversion X; subst. exfalso. rewrite app_length in LN. cbn [List.length] in LN. lia. }
  destruct K as (st2' & -> & R2). cbn [session_loop] in X |- *.
  destruct (session_step m A e2 st2 l2) as [[[[e3 st3] o3] q]|k] eqn:S2.
  2: { inversion X; subst. exfalso. rewrite app_nil_r, app_length in LN. cbn [List.length] in LN. lia. }
  assert (N3 : forall t, nth_error (la ++ (l1, o) :: lc ++ (l2, o3) :: t) (List.length a + 1 + List.length c) = Some (l2, o3)).
  { intros t. replace (la ++ (l1, o) :: lc ++ (l2, o3) :: t) with ((la ++ (l1, o) :: lc) ++ (l2, o3) :: t)
      by (rewrite <- app_assoc; reflexivity).
    replace (List.length a + 1 + List.length c)%nat with (List.length (la ++ (l1, o) :: lc)) by (rewrite app_length; cbn; lia). apply nth_mid. }
  destruct q.
  - inversion X; subst. rewrite (H2 _ _ _ _ _ _ _ R2 S2 (N3 [])). rewrite drop_mid by auto. reflexivity.
  - destruct (session_loop m A e3 st3 b) as [lb rb] eqn:LB. inversion X; subst.
    rewrite (H2 _ _ _ _ _ _ _ R2 S2 (N3 lb)), LB. rewrite drop_mid by auto. reflexivity.
Qed.

(** Dice that are replaced (by other dice, or by "newgame") before any "go" leave no trace: the line that gave them can be
    left out. *)
Theorem C93_dice_replaced : forall E m (A : engine E) e0 a l1 c l2 b log r,
  run_ubgi_stdio m A e0 (map Some a ++ Some l1 :: map Some c ++ Some l2 :: b) = (log, r) ->
  gives_dice l1 -> Forall idle c -> replaces_dice l2 ->
  (exists out, nth_error log (List.length a + 1 + List.length c) = Some (l2, out)) ->
  run_ubgi_stdio m A e0 (map Some a ++ map Some c ++ Some l2 :: b) = (drop_nth (List.length a) log, r).
Proof.
  intros E m A e0 a l1 c l2 b log r X G1 ID G2 N. eapply (overwritten m A but_dice); eauto using dice_alike.
  - intros h e st e' st' o q _ S _. destruct G1 as (rr & x & y & D & T). apply dice_line_iff in D.
    pose proof (not_quit_false _ _ _ _ _ _ _ _ _ S) as NQ. rewrite D in NQ.
    rewrite step_cmd in S by (apply cmd_nonblank; rewrite D; discriminate). rewrite D in S. cbn [handle_command] in S.
    destruct (handle_dice_iff m st rr) as [(x' & y' & dd & _ & _ & _ & Y)|(Y & _)]; [|exfalso; exact (Y x y T)].
    rewrite Y in S. cbn [bind] in S. inversion S; subst. repeat split. exists (s_dice st). destruct st; reflexivity.
  - intros e st st' e1 st1 o q R S _. rewrite <- (replace_dice m A e st st' l2 R G2). exact S.
Qed.

(** A position that is replaced (by another one, by a variant or by "newgame") before any "go" leaves no trace. *)
Theorem C93_position_replaced : forall E m (A : engine E) e0 a l1 c l2 b log r,
  run_ubgi_stdio m A e0 (map Some a ++ Some l1 :: map Some c ++ Some l2 :: b) = (log, r) ->
  gives_position l1 -> Forall idle c -> replaces_position l2 ->
  nth_error log (List.length a + 1 + List.length c) = Some (l2, []) ->
  run_ubgi_stdio m A e0 (map Some a ++ map Some c ++ Some l2 :: b) = (drop_nth (List.length a) log, r).
Proof.
  intros E m A e0 a l1 c l2 b log r X G1 ID G2 N. eapply (overwritten m A but_game); eauto using game_alike.
  - intros h e st e' st' o q R S _. destruct G1 as (id & D). apply gnubgid_line_iff in D.
    pose proof (i_gvariant (reaches_invariant R)) as V.
    rewrite step_cmd in S by (apply cmd_nonblank; rewrite D; discriminate). rewrite D in S. cbn [handle_command] in S.
    destruct (gnuid_decode m (s_variant st) (trim id)) as [[er|p]|]; cbn [bind] in S; [| |discriminate].
    + inversion S; subst. repeat split; [exact V|]. exists (s_game st'). split; [exact V|destruct st'; reflexivity].
    + pose proof (set_position_variant (s_game st) p) as KV. destruct (set_position (s_game st) p) as [x g]. cbn [snd] in KV.
      inversion S; subst. repeat split; [cbn; congruence|]. exists (s_game st). split; [exact V|destruct st; reflexivity].
  - intros e st st' e1 st1 o q R S M. assert (o = []) by congruence. subst o. eapply replace_game; eauto.
Qed.

(** ** Order *)
Lemma keeps_dice {E} m (A : engine E) e st line e' st' out q : session_step m A e st line = Ret (e', st', out, q) ->
  ~ replaces_dice line -> s_dice st' = s_dice st.
Proof.
  intros S N. apply step_inv in S. destruct S as [(_ & _ & -> & _)|(NB & H & _)]; [auto|].
  destruct (cmd_of line) as [| | | |key|key v|id| | |rest| | | | |] eqn:C; cbn [handle_command] in H;
    try (inversion H; subst; reflexivity).
  - destruct (on_ready A e) as [[e1 [er|u]]|k]; cbn [bind] in H; inversion H; subst; reflexivity.
  - exfalso. apply N. right. apply newgame_iff. exact C.
  - destruct (handle_get A e st key); cbn [bind] in H; inversion H; subst; reflexivity.
  - unfold handle_set in H. destruct (_ || _); [inversion H; subst; reflexivity|].
    destruct (str_eqb key _); [destruct (variant_from_str v); inversion H; subst; reflexivity|].
    destruct (find _ _) as [o|]; [|inversion H; subst; reflexivity].
    destruct (parse_value o v) as [er|w]; [inversion H; subst; reflexivity|].
    destruct (eng_set A e key w) as [[e1 [er|u]]|k]; cbn [bind] in H; inversion H; subst; reflexivity.
  - destruct (gnuid_decode m (s_variant st) (trim id)) as [[er|p]|]; cbn [bind] in H; [|destruct (set_position _ _)|discriminate];
      inversion H; subst; reflexivity.
  - destruct (handle_dice_iff m st rest) as [(x & y & d & T & _)|(_ & X)].
    + exfalso. apply N. left. exists rest, x, y. split; [apply dice_line_iff; exact C|exact T].
    + rewrite X in H. cbn [bind] in H. inversion H; subst. reflexivity.
  - destruct (handle_go A e st) as [[e1 o]|]; cbn [bind] in H; inversion H; subst; reflexivity.
Qed.
Lemma dice_step {E} m (A : engine E) line : gives_dice line -> exists d, forall e st,
  session_step m A e st line = Ret (e, with_game st (s_variant st) (s_game st) (Some d), [], false).
Proof.
  intros (r & a & b & D & T).
  destruct (handle_dice_iff m (session_new passing_engine tt) r) as [(x & y & d & T1 & S1 & _)|(X & _)]; [|exfalso; exact (X a b T)].
  exists d. intros e st.
  apply dice_line_iff in D. rewrite step_cmd by (apply cmd_nonblank; rewrite D; discriminate). rewrite D. cbn [handle_command].
  destruct (handle_dice_iff m st r) as [(x' & y' & d' & T2 & S2 & _ & X)|(X & _)]; [|exfalso; exact (X a b T)].
  destruct (two_dice_fun T1 T2) as (<- & <-). rewrite X, (shows_fun _ _ _ _ S1 S2). reflexivity.
Qed.
Lemma exchange {E} m (A : engine E) e st l1 l2 e2 st1 st2 o : gives_dice l1 -> idle l2 -> ~ replaces_dice l2 ->
  session_step m A e st l1 = Ret (e, st1, [], false) -> session_step m A e st1 l2 = Ret (e2, st2, o, false) ->
  exists st', session_step m A e st l2 = Ret (e2, st', o, false) /\ session_step m A e2 st' l1 = Ret (e2, st2, [], false).
Proof.
  intros G (NG & NQ) N S1 S2. destruct (dice_step m A l1 G) as (d & D). rewrite D in S1. inversion S1; subst st1.
  assert (R : but_dice (with_game st (s_variant st) (s_game st) (Some d)) st) by (exists (s_dice st); destruct st; reflexivity).
  pose proof (dice_alike m A l2 NG e _ _ R) as K. rewrite S2 in K. destruct K as (st' & X & d' & ->).
  pose proof (keeps_dice m A _ _ _ _ _ _ _ S2 N) as KD. cbn [with_game s_dice] in KD.
  eexists. split; [exact X|]. rewrite D. cbn [with_game s_variant s_game]. f_equal. f_equal. f_equal. f_equal.
  destruct st2. cbn in KD |- *. subst. reflexivity.
Qed.
Lemma exchange_back {E} m (A : engine E) e st l1 l2 e2 st1 st2 o : gives_dice l1 -> idle l2 -> ~ replaces_dice l2 ->
  session_step m A e st l2 = Ret (e2, st1, o, false) -> session_step m A e2 st1 l1 = Ret (e2, st2, [], false) ->
  exists st', session_step m A e st l1 = Ret (e, st', [], false) /\ session_step m A e st' l2 = Ret (e2, st2, o, false).
Proof.
  intros G (NG & NQ) N S1 S2. destruct (dice_step m A l1 G) as (d & D). rewrite D in S2. inversion S2; subst st2.
  assert (R : but_dice st (with_game st (s_variant st) (s_game st) (Some d))) by (exists (Some d); reflexivity).
  pose proof (dice_alike m A l2 NG e _ _ R) as K. rewrite S1 in K. destruct K as (st' & X & d' & ->).
  pose proof (keeps_dice m A _ _ _ _ _ _ _ X N) as KD. cbn [with_game s_dice] in KD.
  eexists. split; [apply D|]. rewrite X. subst d'. reflexivity.
Qed.

(** The dice may be given before or after a position, a variant, an option or a question: exchanging the two lines only
    exchanges their replies. *)
Theorem C93_order : forall E m (A : engine E) e0 a l1 l2 b log r,
  run_ubgi_stdio m A e0 (map Some a ++ Some l1 :: Some l2 :: b) = (log, r) ->
  (gives_dice l1 /\ idle l2 /\ ~ replaces_dice l2) \/ (gives_dice l2 /\ idle l1 /\ ~ replaces_dice l1) ->
  (List.length a + 1 < List.length log)%nat ->
  run_ubgi_stdio m A e0 (map Some a ++ Some l2 :: Some l1 :: b) = (swap_nth (List.length a) log, r).
Proof.
  intros E m A e0 a l1 l2 b log r X G L. unfold run_ubgi_stdio in *. rewrite loop_walk in X |- *.
  destruct (walk m A e0 (session_new A e0) a) as [la [ra|e st]] eqn:W; pose proof (walk_length m A _ _ _ _ _ W) as LW; cbn beta iota in LW.
  { inversion X; subst. lia. }
  cbn [session_loop] in X |- *. 
  destruct (session_step m A e st l1) as [[[[e1 st1] o1] q1]|k] eqn:S1.
  2: { inversion X; subst. rewrite app_nil_r in L. lia. }
  assert (q1 = false).
  { apply (not_quit_false _ _ _ _ _ _ _ _ _ S1). rewrite <- quit_iff. destruct G as [(G & _)|(_ & (_ & Q) & _)]; [|exact Q].
    intros Q. destruct G as (rr & x & y & D & _). apply dice_line_iff in D. apply quit_iff in Q. congruence. }
  subst q1.
  destruct (session_step m A e1 st1 l2) as [[[[e2 st2] o2] q2]|k] eqn:S2.
  2: { inversion X; subst. rewrite app_length in L. cbn [List.length] in L. lia. }
  assert (q2 = false).
  { apply (not_quit_false _ _ _ _ _ _ _ _ _ S2). rewrite <- quit_iff. destruct G as [(_ & (_ & Q) & _)|(G & _)]; [exact Q|].
    intros Q. destruct G as (rr & x & y & D & _). apply dice_line_iff in D. apply quit_iff in Q. congruence. }
  subst q2.
  destruct (session_loop m A e2 st2 b) as [lb rb] eqn:LB. inversion X; subst.
  destruct G as [(G & I & N)|(G & I & N)].
  - destruct (dice_step m A l1 G) as (d & D). pose proof S1 as S1'. rewrite D in S1'. inversion S1'; subst.
    destruct (exchange m A _ _ _ _ _ _ _ _ G I N S1 S2) as (st' & Y1 & Y2). rewrite Y1, Y2, LB. rewrite swap_mid by auto. reflexivity.
  - destruct (dice_step m A l2 G) as (d & D). pose proof S2 as S2'. rewrite D in S2'. inversion S2'; subst.
    destruct (exchange_back m A _ _ _ _ _ _ _ _ G I N S1 S2) as (st' & Y1 & Y2). rewrite Y1, Y2, LB. rewrite swap_mid by auto. reflexivity.
Qed.

(** ** Cases *)
Definition lines (l : list string) : list str := map (fun s => lit s) l.
Lemma gives s r a b : dice_line s r -> two_dice r a b -> gives_dice s.
Proof. intros D T. exists r, a, b. auto. Qed.
Lemma two_of m st r st' : handle_dice m st r = Ret (st', []) -> exists a b, two_dice r a b.
Proof. intros H. destruct (handle_dice_iff m st r) as [(a & b & _ & T & _)|(_ & X)]; [eauto|]. rewrite X in H. discriminate. Qed.
Lemma gives_of s r : cmd_of s = CDice r -> (exists st', handle_dice Release (session_new passing_engine tt) r = Ret (st', [])) -> gives_dice s.
Proof. intros D (st' & H). destruct (two_of _ _ _ _ H) as (a & b & T). exists r, a, b. split; [apply dice_line_iff; exact D|exact T]. Qed.
Ltac idle_line := split; [rewrite go_iff|rewrite quit_iff]; vm_compute; discriminate.

(** A question and a refused line in the middle of a session. *)
Example C93_left_out_case : exists log r,
  run_ubgi_stdio Debug passing_engine tt (map Some (lines ["set game.variant nackgammon"; "dice 3 1"]%string) ++
     Some (lit "get engine.ply") :: map Some (lines ["go"; "newgame"]%string)) = (log, r) /\
  nth_error log 2 = Some (lit "get engine.ply", [lit "value engine.ply 2"]) /\ only_asks (lit "get engine.ply") /\
  turned_down (eng_options passing_engine tt) (lit "dice 7 1") [lit "error bad_value dice"] /\
  turned_down (eng_options passing_engine tt) (lit "set depth 3") [lit "error unsupported key"].
Proof.
  eexists. eexists. split; [vm_compute; reflexivity|]. split; [vm_compute; reflexivity|]. split.
  { right. right. right. left. exists (lit "engine.ply"). apply get_line_iff. vm_compute. reflexivity. }
  split.
  { left. split; [discriminate|]. left. exists (lit "7 1"). apply dice_line_iff. vm_compute. reflexivity. }
  right. exists (lit "depth"), (lit "3"). split; [apply set_line_iff; vm_compute; reflexivity|]. right. right.
  split; [vm_compute; discriminate|]. intros o v D. exfalso. apply find_declared in D. vm_compute in D. discriminate.
Qed.
(** Dice, and a position, replaced before [go]. *)
Example C93_replaced_case : exists log r,
  run_ubgi_stdio Debug passing_engine tt (map Some (lines ["isready"]%string) ++ Some (lit "dice 6 5") ::
     map Some (lines ["keys"; "position gnubgid 4HPwATDgc/ABMA"]%string) ++ Some (lit " dice 2 2 ") :: map Some (lines ["go"]%string)) = (log, r) /\
  gives_dice (lit "dice 6 5") /\ Forall idle (lines ["keys"; "position gnubgid 4HPwATDgc/ABMA"]%string) /\ replaces_dice (lit " dice 2 2 ") /\
  nth_error log 4 = Some (lit " dice 2 2 ", []).
Proof.
  eexists. eexists. split; [vm_compute; reflexivity|]. split.
  { eapply gives_of; [vm_compute; reflexivity|eexists; vm_compute; reflexivity]. }
  split; [unfold lines; cbn [map]; repeat (apply Forall_cons; [idle_line|]); apply Forall_nil|]. split; [|vm_compute; reflexivity].
  left. eapply gives_of; [vm_compute; reflexivity|eexists; vm_compute; reflexivity].
Qed.
Example C93_position_case : exists log r,
  run_ubgi_stdio Debug passing_engine tt (map Some (lines ["dice 6 5"]%string) ++ Some (lit "position gnubgid 4HPwATDgc/ABMA") ::
     map Some (lines ["get game.variant"]%string) ++ Some (lit "set game.variant longgammon") :: map Some (lines ["go"]%string)) = (log, r) /\
  gives_position (lit "position gnubgid 4HPwATDgc/ABMA") /\ Forall idle (lines ["get game.variant"]%string) /\
  replaces_position (lit "set game.variant longgammon") /\ nth_error log 3 = Some (lit "set game.variant longgammon", []).
Proof.
  eexists. eexists. split; [vm_compute; reflexivity|]. split; [eexists; apply gnubgid_line_iff; vm_compute; reflexivity|].
  split; [unfold lines; cbn [map]; repeat (apply Forall_cons; [idle_line|]); apply Forall_nil|]. split; [|vm_compute; reflexivity].
  right. right. eexists. apply set_line_iff. vm_compute. reflexivity.
Qed.
Example C93_order_case : exists log r,
  run_ubgi_stdio Debug passing_engine tt (map Some (lines ["isready"]%string) ++ Some (lit "dice 6 5") :: Some (lit "set engine.ply 9") ::
     map Some (lines ["go"]%string)) = (log, r) /\
  gives_dice (lit "dice 6 5") /\ idle (lit "set engine.ply 9") /\ ~ replaces_dice (lit "set engine.ply 9") /\ List.length log = 4%nat.
Proof.
  eexists. eexists. split; [vm_compute; reflexivity|]. split.
  { eapply gives_of; [vm_compute; reflexivity|eexists; vm_compute; reflexivity]. }
  split; [idle_line|]. split; [|vm_compute; reflexivity].
  intros [(r & a & b & D & _)|N]; [apply dice_line_iff in D|apply newgame_iff in N]; vm_compute in *; discriminate.
Qed.
(** Without the hypotheses it fails: a [go] in between sees the dice, and "newgame" before or after the dice matters. *)
Example C93_needed :
  map snd (fst (run_ubgi_stdio Debug passing_engine tt (map Some (lines ["dice 6 5"; "newgame"; "go"]%string)))) =
    [[]; []; [lit "error bad_state missing.dice"]] /\
  map snd (fst (run_ubgi_stdio Debug passing_engine tt (map Some (lines ["newgame"; "dice 6 5"; "go"]%string)))) = [[]; []; [lit "bestmove pass"]].
Proof. split; vm_compute; reflexivity. Qed.
