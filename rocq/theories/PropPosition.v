(** Properties C06, C07, C08, C33: game results, phases, building positions, equality.
    Read with SpecRules.v, SpecVariants.v and SpecGame.v. *)
From Verif Require Import TryFromFacts ModeFacts Game.
Open Scope Z_scope.

(** ** C06 *)

(** [game_state] never panics and gives exactly the outcome of the rules (which is unique). *)
Theorem C06_game_state : forall m N p, wf N p -> not_both_won N p ->
  exists s, game_state m N p = Ret s /\ outcome N p s /\ forall s', outcome N p s' -> s' = s.
Proof.
  intros m N p W NB. destruct (game_state_outcome m W NB) as (s & E & O).
  exists s. split; auto. split; auto. intros s' O'. pose proof (wf_N W).
  eapply outcome_fun; eauto; lia.
Qed.

(** The same through variant positions and games. *)
Theorem C06_game_state_variant : forall m k p, wf (checkers k) p -> not_both_won (checkers k) p ->
  exists s, vp_game_state m (tag k p) = Ret s /\
            game_state_of m {| g_variant := k; g_position := tag k p |} = Ret s /\
            outcome (checkers k) p s.
Proof.
  intros m k p W NB. destruct (game_state_outcome m W NB) as (s & E & O).
  exists s. unfold game_state_of. simpl. rewrite vp_game_state_tag. auto.
Qed.

(** Flipping the board reverses the result; [reverse] negates the value and swaps win/lose. *)
Theorem C06_flip_reverses : forall m N p q s, wf N p -> not_both_won N p ->
  mirrored p q -> game_state m N p = Ret s -> game_state m N q = Ret (reverse_state s).
Proof.
  intros m N p q s W NB M E. apply mirrored_iff in M; [|apply W]. subst q.
  destruct (game_state_outcome m W NB) as (s0 & E0 & O). rewrite E in E0. inversion E0; subst s0.
  pose proof (outcome_flip W NB O) as O'.
  assert (NB' : not_both_won N (flipP p)) by (unfold not_both_won in *; simpl; lia).
  destruct (game_state_outcome m (flipP_wf W) NB') as (s1 & E1 & O1). rewrite E1. f_equal.
  pose proof (wf_N W). eapply outcome_fun; eauto; lia.
Qed.
Theorem C06_reverse : forall r,
  value (reverse r) = - value r /\ is_win (reverse r) = negb (is_win r) /\ reverse (reverse r) = r /\
  (is_win r = true <-> 0 < value r) /\ 1 <= Z.abs (value r) <= 3.
Proof. intros []; simpl; repeat split; intros; auto; discriminate. Qed.

(** The trait's default [game_state] agrees with the optimised one. *)
Theorem C06_default_agrees : forall m N p, wf N p -> not_both_won N p ->
  game_state_default m N p = game_state m N p.
Proof. intros. apply game_state_default_eq; auto. Qed.

(** The hypothesis holds after every play from an ongoing position. *)
Theorem C06_reachable : forall k v d w,
  vwf k v -> vongoing v -> valid_dice d -> vlegal d v w ->
  not_both_won (checkers k) (board_of w).
Proof.
  intros k v d w (p & -> & W) O V L. rewrite vongoing_tag in O.
  left. exact (legal_not_both k W O V L).
Qed.

Definition ex_backgammon : position :=
  {| turn := true;
     pips := [0; 0; 0; 0; -1; 0; 0; 0; 0; 0; 0; 0; 0; 0; 0; 0; 0; 0; 0; 0; -2; 0; 0; 0; 0; 0];
     x_off := 3; o_off := 0 |}.
Example C06_backgammon_example :
  wf 3 ex_backgammon /\ not_both_won 3 ex_backgammon /\
  game_state Debug 3 ex_backgammon = Ret (GameOver WinBackgammon).
Proof.
  split; [|split; [right; vm_compute; reflexivity|vm_compute; reflexivity]].
  constructor; vm_compute; try reflexivity; try (split; intro; discriminate); intro; discriminate.
Qed.

Example C06_reversed_example : exists q, mirrored ex_backgammon q /\
  game_state Debug 3 q = Ret (GameOver LoseBackgammon) /\
  reverse_state (GameOver WinBackgammon) = GameOver LoseBackgammon /\
  value WinBackgammon = 3 /\ value LoseBackgammon = -3.
Proof.
  exists (flipP ex_backgammon). split; [apply flipP_mirrored; reflexivity|].
  vm_compute. auto.
Qed.

(** ** C07 *)

(** [phase] never panics; over: the result; ongoing: race exactly when no contact is left. *)
Theorem C07_phase : forall m N p, wf N p -> not_both_won N p ->
  exists ph, phase m N p = Ret ph /\
  match ph with
  | PGameOver r => outcome N p (GameOver r)
  | POngoing Race => ongoing N p /\ no_contact p
  | POngoing Contact => ongoing N p /\ ~ no_contact p
  end.
Proof. intros. apply phase_spec; auto. Qed.

Theorem C07_phase_agrees : forall m N p r, wf N p -> not_both_won N p ->
  (phase m N p = Ret (PGameOver r) <-> game_state m N p = Ret (GameOver r)).
Proof.
  intros m N p r W NB. unfold phase.
  destruct (game_state_outcome m W NB) as (s & E & O). rewrite E, bind_ret.
  destruct s as [|r']; [|split; intros H; inversion H; reflexivity].
  pose proof (phase_spec m W NB) as (ph & E' & H). unfold phase in E'. rewrite E, bind_ret in E'.
  rewrite E'. split; intros H'; inversion H'; subst.
  inversion O; inversion H; subst; lia.
Qed.

(** Once the race has begun, after any number of further plays the position is a race or over. *)
Theorem C07_race_irrevocable : forall m k v n w,
  vwf k v -> vp_phase m v = Ret (POngoing Race) -> vongoing v -> played n v w ->
  vp_phase m w = Ret (POngoing Race) \/ exists r, vp_phase m w = Ret (PGameOver r).
Proof.
  intros m k v n w W E O P.
  assert (NC : no_contact (board_of v)).
  { destruct W as (p & -> & W). rewrite vp_phase_tag in E. rewrite board_of_tag.
    rewrite vongoing_tag in O. destruct (@phase_spec m _ p W (or_introl (proj1 O))) as (ph & E' & H).
    rewrite E in E'. inversion E'; subst. apply H. }
  assert (NB : not_both_won (checkers k) (board_of v)).
  { destruct W as (p & -> & W). rewrite vongoing_tag in O. rewrite board_of_tag. left. apply O. }
  clear E O.
  assert (H : vwf k w /\ no_contact (board_of w) /\ not_both_won (checkers k) (board_of w)).
  { induction P as [v|n v w u d O V L P IH]; auto. apply IH.
    - eapply vlegal_vwf; eauto.
    - destruct W as (p & -> & W). destruct (vlegal_wf _ W V L) as (r & -> & (ds & U & Q & _) & Wr).
      rewrite board_of_tag in *. apply no_contact_flip; [apply Wr|].
      apply (no_contact_plays W (uses_valid V U) Q NC).
    - exact (C06_reachable W O V L). }
  destruct H as ((p & -> & Wp) & NCp & NBp). rewrite board_of_tag in *. rewrite vp_phase_tag.
  destruct (phase_spec m Wp NBp) as ([[|]|r] & E & H).
  - destruct H. contradiction.
  - left. auto.
  - right. eauto.
Qed.

(** ... and nobody is ever hit: a play in a race leaves the opponent's checkers where they are. *)
Theorem C07_race_no_hits : forall m k v d w,
  vwf k v -> vongoing v -> vp_phase m v = Ret (POngoing Race) -> valid_dice d -> vlegal d v w ->
  forall i, (i <= 25)%nat -> pt (board_of v) i < 0 -> pt (board_of w) (25 - i) = - pt (board_of v) i.
Proof.
  intros m k v d w (p & -> & W) O E V L i Hi X. rewrite vongoing_tag in O.
  rewrite vp_phase_tag in E. rewrite board_of_tag in *.
  destruct (@phase_spec m _ p W (or_introl (proj1 O))) as (ph & E' & H).
  rewrite E in E'. inversion E'; subst ph. destruct H as [_ NC].
  destruct (vlegal_wf _ W V L) as (r & -> & (ds & U & Q & _) & Wr).
  rewrite board_of_tag, pt_flipP by (try apply Wr; lia). replace (25 - (25 - i))%nat with i by lia.
  f_equal. destruct (no_contact_plays W (uses_valid V U) Q NC) as (_ & A & B).
  destruct (plays_pips W (uses_valid V U) Q) as (_ & _ & _ & _ & _ & _ & K & _).
  destruct (Nat.eq_dec i 0) as [->|]; auto.
  destruct (Nat.eq_dec i 25) as [->|]; [pose proof (wf_xbar W); lia|].
  destruct (K i ltac:(lia)) as [K1 _]. destruct (K1 X) as [->|[K2 K3]]; auto.
  apply A in X. lia.
Qed.

Definition ex_race : position :=
  {| turn := true;
     pips := [0; 0; 0; 2; 0; 0; 0; 0; 0; 0; 0; -1; 0; 0; 0; 0; 0; 0; 0; 0; -2; 0; 0; 0; 0; 0];
     x_off := 1; o_off := 0 |}.
Example C07_race_example :
  wf 3 ex_race /\ ongoing 3 ex_race /\ phase Debug 3 ex_race = Ret (POngoing Race).
Proof.
  split; [|split; [split; vm_compute; reflexivity|vm_compute; reflexivity]].
  constructor; vm_compute; try reflexivity; try (split; intro; discriminate); intro; discriminate.
Qed.

(** From it x may bear off the last two checkers with a double 3: a win with a gammon. *)
Example C07_race_to_gammon : exists w, played 1 (tag Hypergammon ex_race) w /\
  vp_phase Debug w = Ret (PGameOver LoseGammon).
Proof.
  assert (W : vwf Hypergammon (tag Hypergammon ex_race))
    by (exists ex_race; split; [reflexivity|apply C07_race_example]).
  assert (O : vongoing (tag Hypergammon ex_race))
    by (exists Hypergammon, ex_race; split; [reflexivity|apply C07_race_example]).
  assert (V : valid_dice (Double 3)) by (cbv; lia).
  destruct (legal_positions_correct Debug (Double 3) W O V) as (l & E & _ & H).
  vm_compute in E. inversion E; subst l. eexists. split.
  - eapply played_S; [exact O|exact V|apply H; left; reflexivity|apply played_0].
  - vm_compute. reflexivity.
Qed.

(** A [Game] answers for its current position: [game_state] and [phase] of a game of any variant are those of the board. *)
Theorem C07_game_answers : forall m g, vwf (g_variant g) (g_position g) -> not_both_won (checkers (g_variant g)) (board_of (g_position g)) ->
  exists s ph, game_state_of m g = Ret s /\ outcome (checkers (g_variant g)) (board_of (g_position g)) s /\ game_phase_of m g = Ret ph /\
  match ph with
  | PGameOver r => s = GameOver r
  | POngoing Race => s = Ongoing /\ no_contact (board_of (g_position g))
  | POngoing Contact => s = Ongoing /\ ~ no_contact (board_of (g_position g))
  end.
Proof.
  intros m [k v] (p & E & W) NB. cbn [g_variant g_position] in *. subst v. rewrite board_of_tag in *.
  destruct (C06_game_state m W NB) as (s & Es & O & _). destruct (C07_phase m W NB) as (ph & Ep & H).
  exists s, ph. unfold game_state_of, game_phase_of. cbn [g_position]. rewrite vp_game_state_tag, vp_phase_tag.
  split; [exact Es|]. split; [exact O|]. split; [exact Ep|].
  destruct ph as [[]|r].
  - split; [|apply H]. destruct H as [[A B] _]. inversion O; subst; auto; lia.
  - split; [|apply H]. destruct H as [[A B] _]. inversion O; subst; auto; lia.
  - apply (C07_phase_agrees m r W NB) in Ep. congruence.
Qed.
Example C07_game_answers_ex : exists g, g_variant g = Hypergammon /\ vwf (g_variant g) (g_position g) /\
  game_phase_of Debug g = Ret (POngoing Race) /\ game_phase_of Debug (game_new Hypergammon) = Ret (POngoing Contact).
Proof.
  exists {| g_variant := Hypergammon; g_position := tag Hypergammon ex_race |}. split; [reflexivity|].
  split; [exists ex_race; split; [reflexivity|apply C07_race_example]|]. vm_compute. auto.
Qed.

(** ** C08 *)

(** Full property: for every array of 26 i8 values, [try_from] returns the answer [try_answer]
    (Ok with the array and the missing checkers off exactly when the array is acceptable).
    It is false of the code: the i8 sums overflow.  A release build accepts an array with 256 x
    checkers (and returns an ill-formed position), a debug build panics on it. *)
Definition C08_statement : Prop :=
  forall m N ps, 1 <= N <= 127 -> length ps = 26%nat -> Forall i8_range ps ->
  exists r, try_from m N ps = Ret r /\ try_answer N ps r.

Definition ex_overflow : list Z :=
  [0; 127; 127; 2; 0; 0; 0; 0; 0; 0; 0; 0; 0; 0; 0; 0; 0; 0; 0; 0; 0; 0; 0; 0; 0; 0].
Theorem C08_refuted : ~ C08_statement.
Proof.
  intros H. destruct (H Release 15 ex_overflow) as (r & E & A).
  - lia.
  - reflexivity.
  - repeat constructor; unfold i8_range; lia.
  - vm_compute in E. inversion E; subst. destruct A as ((A & _) & _). vm_compute in A. apply A. reflexivity.
Qed.
Theorem C08_debug_panics_refuted : try_from Debug 15 ex_overflow = Panic Overflow.
Proof. vm_compute. reflexivity. Qed.

(** True as long as neither side shows more than 127 checkers (every sum fits an i8), in both
    builds... *)
Theorem C08_try_from_partial : forall m N ps, 1 <= N <= 127 -> length ps = 26%nat ->
  x_count ps <= 127 -> o_count ps <= 127 ->
  exists r, try_from m N ps = Ret r /\ try_answer N ps r.
Proof. intros. apply try_from_bounded; auto; lia. Qed.

(** ... and in a debug build for every array on which it does not panic. *)
Theorem C08_try_from_debug_partial : forall N ps r, 1 <= N <= 127 -> length ps = 26%nat ->
  try_from Debug N ps = Ret r -> try_answer N ps r.
Proof. intros. eapply try_from_debug; eauto. Qed.
(** Cases: an acceptable array, one with too many x checkers, one with an o checker on x's bar. *)
Definition ex_array (bar : Z) (n : Z) : list Z :=
  [0; n; 0; 0; 0; 0; 0; 0; 0; 0; 0; 0; 0; 0; 0; 0; 0; 0; 0; 0; 0; 0; 0; -2; 0; bar].
Example C08_case :
  (x_count (ex_array 1 2) <= 127 /\ o_count (ex_array 1 2) <= 127 /\ acceptable 3 (ex_array 1 2)) /\
  try_from Debug 3 (ex_array 1 2) =
    Ret (inr {| turn := true; pips := ex_array 1 2; x_off := 0; o_off := 1 |}) /\
  (x_count (ex_array 1 3) <= 127 /\ ~ acceptable 3 (ex_array 1 3)) /\
  (exists e, try_from Debug 3 (ex_array 1 3) = Ret (inl e)) /\
  (~ acceptable 3 (ex_array (-1) 2) /\ exists e, try_from Debug 3 (ex_array (-1) 2) = Ret (inl e)).
Proof.
  split; [vm_compute; intuition discriminate|]. split; [reflexivity|].
  split; [split; [vm_compute; discriminate|intros (A & _); vm_compute in A; apply A; reflexivity]|].
  split; [eexists; vm_compute; reflexivity|].
  split; [intros (_ & _ & A & _); vm_compute in A; apply A; reflexivity|eexists; vm_compute; reflexivity].
Qed.

(** A well-formed position is rebuilt from its own array, up to the turn. *)
Theorem C08_rebuild : forall m N p, wf N p ->
  exists q, try_from m N (pips p) = Ret (inr q) /\ position_eqb q p = true /\ turn q = true.
Proof.
  intros m N p W. rewrite (try_from_wf m W). eexists; split; [reflexivity|]. split; auto.
  unfold position_eqb. simpl. destruct (list_eq_dec Z.eq_dec (pips p) (pips p)); [|congruence].
  rewrite !Z.eqb_refl. reflexivity.
Qed.

Print Assumptions C06_game_state.
Print Assumptions C07_race_irrevocable.
Print Assumptions C08_try_from_partial.
