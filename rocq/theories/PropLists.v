(** Properties C04 and C52: when a move list repeats a position.  Read with SpecLists.v, SpecRules.v. *)
From Verif Require Import NoDupFacts VariantFacts PropMoves.
Open Scope Z_scope.

(** ** C04: "each position once" is false of the code. *)
Definition last_two : position :=
  {| turn := true; pips := [0;1;1;0;0;0;0;0;0;0;0;0;0;0;0;0;0;0;0;0;0;0;-1;-1;-1;0]; x_off := 13; o_off := 12 |}.
Theorem C04_refuted : exists l, wf 15 last_two /\ ongoing 15 last_two /\ valid_dice (Mixed 6 4) /\
  legal_positions Debug (VBackgammon last_two) (Mixed 6 4) = Ret l /\ ~ NoDup l.
Proof.
  eexists. split; [solve_wf|]. split; [vm_compute; auto|]. split; [unfold valid_dice, valid_die; lia|].
  split; [vm_compute; reflexivity|]. intros Nd. inversion Nd as [|? ? X _]. apply X. left. reflexivity.
Qed.

(** ** C52: exactly when, and how *)
(** [legal_positions] lists every position once, except that when the two rearmost checkers are both
    borne off in either order the single result is listed exactly twice. *)
Theorem C52_positions : forall m N p d l, wf N p -> valid_dice d -> classic_positions m N p d = Ret l ->
  (NoDup l <-> ~ repeats d p) /\ (repeats d p -> exists q, l = [q; q]).
Proof.
  intros m N p d l W V E. destruct (@movegen_lists N m p d l W V E) as (A & B). split; auto. split; auto.
  intros Nd T. destruct (A T) as (q & ->). inversion Nd as [|? ? X _]. apply X. left. reflexivity.
Qed.
Theorem C52_variants : forall m k p d l, vwf k (tag k p) -> valid_dice d -> legal_positions m (tag k p) d = Ret l ->
  (NoDup l <-> ~ repeats d p) /\ (repeats d p -> exists w, l = [w; w]).
Proof.
  intros m k p d l W V E. apply vwf_tag in W. unfold legal_positions in E. rewrite classic_rules_tag in E.
  apply bind_inv in E. destruct E as (l0 & E0 & E). inversion E; subst l. clear E.
  destruct (@C52_positions m (checkers k) p d l0 W V E0) as ((A & A') & B). split.
  - split.
    + intros Nd. apply A. apply (NoDup_map_inv (tag k)), Nd.
    + intros T. apply FinFun.Injective_map_NoDup; auto. intros a b Eab. apply tag_inj in Eab. tauto.
  - intros T. destruct (B T) as (q & ->). exists (tag k q). reflexivity.
Qed.
(** In particular never with a double, never with a checker on the bar or outside the home board. *)
Theorem C04_nodup_partial : forall m N p d l, wf N p -> valid_dice d -> classic_positions m N p d = Ret l ->
  (exists a, d = Double a) \/ (exists i, (6 <= i <= 25)%nat /\ 0 < pt p i) -> NoDup l.
Proof.
  intros m N p d l W V E H. apply (proj1 (@C52_positions m N p d l W V E)). intros (B & S & -> & a & b & L & LS & A & P & X).
  destruct V as ((_ & B2) & _ & L2). destruct H as [(c & H)|(i & Hi & H)]; [discriminate|].
  specialize (X i ltac:(lia) ltac:(lia)). lia.
Qed.
(** Counting: without repetition, the list is as long as there are different results. *)
Theorem C52_number_of_results : forall m N p d l, wf N p -> valid_dice d -> ~ repeats d p -> classic_positions m N p d = Ret l ->
  forall results, NoDup results -> (forall q, In q results <-> exists r, legal_result d p r /\ mirrored r q) ->
  ongoing N p -> length results = length l.
Proof.
  intros m N p d l W V T E rs Nr H O. destruct (C01_position_rules_exact m d W O V) as (l' & E' & H').
  rewrite E in E'. inversion E'; subst l'. apply Permutation.Permutation_length, Permutation.NoDup_Permutation; auto.
  - apply (@C52_positions m N p d l W V E), T.
  - intros q. rewrite H, H'. tauto.
Qed.
Example C52_ex : repeats (Mixed 6 4) last_two /\ ~ repeats (Mixed 3 1) BACKGAMMON /\ wf 15 BACKGAMMON.
Proof.
  split; [exists 6%nat, 4%nat; split; auto; exists 2%nat, 1%nat; repeat split; try lia; try reflexivity|].
  - intros i Hi Ne. do 26 (destruct i as [|i]; [try lia; vm_compute; discriminate|]). lia.
  - split; [|solve_wf]. intros (B & S & E & a & b & L & LS & _). inversion E; subst. lia.
Qed.
