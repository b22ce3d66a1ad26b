(** Facts about races (C74): no_contact positions. *)
From Verif Require Export GameStateFacts PipFacts.
From Coq Require Import Permutation.
Unset Implicit Arguments.
Open Scope Z_scope.

(** A last index with a property. *)
Lemma last_index (f : nat -> bool) n : (exists i, (i <= n)%nat /\ f i = true) ->
  exists a, (a <= n)%nat /\ f a = true /\ forall i, (a < i <= n)%nat -> f i = false.
Proof.
  induction n as [|n IH]; intros (i & Hi & E).
  - exists 0%nat. assert (i = 0%nat) by lia. subst. repeat split; auto. intros; lia.
  - destruct (f (S n)) eqn:F.
    + exists (S n). repeat split; auto. intros; lia.
    + destruct IH as (a & Ha & Fa & H).
      { exists i. split; auto. destruct (Nat.eq_dec i (S n)) as [->|]; [congruence|lia]. }
      exists a. split; [lia|]. split; auto. intros j Hj.
      destruct (Nat.eq_dec j (S n)) as [->|]; auto. apply H. lia.
Qed.

Lemma rearmost N p : wf N p -> x_off p < N ->
  exists a, (a <= 25)%nat /\ 0 < pt p a /\ forall i, (a < i <= 25)%nat -> pt p i <= 0.
Proof.
  intros W H. destruct (exists_x W H) as (i & Hi & X).
  destruct (last_index (fun i => 0 <? pt p i) 25) as (a & Ha & Fa & R).
  { exists i. split; auto. apply Z.ltb_lt; auto. }
  exists a. split; auto. split; [apply Z.ltb_lt; auto|]. intros j Hj. apply Z.ltb_ge. apply R. auto.
Qed.

Lemma race_no_bar N p : wf N p -> o_off p < N -> no_contact p -> pt p 25 = 0.
Proof.
  intros W H NC. destruct (exists_o W H) as (j & Hj & X). pose proof (wf_xbar W).
  destruct (Z.eq_dec (pt p 25) 0) as [|n]; auto.
  specialize (NC 25%nat j ltac:(lia) Hj ltac:(lia) X). lia.
Qed.

(** In a race the rearmost checker can always move. *)
Lemma race_can_move N p d : wf N p -> ongoing N p -> no_contact p -> valid_die d ->
  exists a, may_move p d a.
Proof.
  intros W [O1 O2] NC [V1 V2]. destruct (rearmost N p W O1) as (a & Ha & X & R).
  pose proof (race_no_bar N p W O2 NC) as B. pose proof (wf_obar W) as OB.
  assert (a <> 0%nat) by (intros ->; lia). assert (a <> 25%nat) by (intros ->; lia).
  exists a. split; [lia|]. split; auto. split; [intros; lia|]. split.
  - intros L. destruct (Z_lt_le_dec (pt p (a - d)) 0) as [Y|]; [|lia].
    specialize (NC a (a - d)%nat ltac:(lia) ltac:(lia) X Y). lia.
  - intros L. split; intros; apply R; lia.
Qed.

Lemma plays_app ds : forall ds' p q r, plays ds p q -> plays ds' q r -> plays (ds ++ ds') p r.
Proof.
  induction ds as [|d ds IH]; intros ds' p q r A B; inversion A; subst; auto.
  cbn [app]. econstructor; eauto.
Qed.

Lemma uses_grow d ds b rest : Permutation (ds ++ b :: rest) (pool d) -> uses d (ds ++ [b]).
Proof. intros H. exists rest. rewrite <- app_assoc. exact H. Qed.

Lemma plays_wf' N ds : forall p r, wf N p -> Forall valid_die ds -> plays ds p r -> wf N r.
Proof.
  induction ds as [|d ds IH]; intros p r W F P; inversion P as [|? ? ? a q ? A B C]; subst; auto.
  inversion F as [|? ? V F']; subst. refine (IH q r _ F' C).
  pose proof (may_move_range A). apply moved_iff in B; [subst|apply W|lia|destruct V; lia].
  apply mv_wf; auto. apply may_move_pre; auto.
Qed.

(** In a race the whole roll is played, unless everything is borne off before. *)
Lemma race_full N p d ds r : wf N p -> ongoing N p -> no_contact p -> valid_dice d ->
  legal_play d p ds r -> Permutation ds (pool d) \/ x_off r = N.
Proof.
  intros W O NC V (U & P & M & _). destruct U as (rest & U).
  pose proof (uses_valid V (ex_intro _ rest U)) as F.
  assert (Fr : Forall valid_die (pool d)).
  { destruct d as [b s|x]; cbn [pool valid_dice] in *;
    repeat match goal with |- Forall _ (_ :: _) => constructor end; try apply Forall_nil; tauto. }
  destruct rest as [|b rest]; [left; rewrite app_nil_r in U; auto|right].
  pose proof (plays_wf' N ds p r W F P) as Wr.
  destruct (plays_pips W F P) as (_ & _ & _ & _ & Eo & _).
  destruct (no_contact_plays W F P NC) as (NCr & _ & _).
  pose proof (wf_off_bounds Wr) as [[_ B] _].
  destruct (Z.eq_dec (x_off r) N) as [|Ne]; auto. exfalso.
  assert (Vb : valid_die b).
  { rewrite Forall_forall in Fr. apply Fr. apply (Permutation_in _ U). apply in_or_app. right. left. auto. }
  destruct (race_can_move N r b Wr) as (a & Ma); auto.
  { split; [lia|]. rewrite Eo. apply O. }
  pose proof (may_move_range Ma).
  assert (Q : plays (ds ++ [b]) p (mv r b a)).
  { eapply plays_app; eauto. econstructor; [eauto| |constructor].
    apply moved_iff; auto. apply Wr. destruct Vb; lia. }
  specialize (M _ _ (uses_grow d ds b rest U) Q). rewrite app_length in M. simpl in M. lia.
Qed.

(** Pip counts in a race. *)
Lemma race_pips N ds : forall p r, wf N p -> no_contact p -> Forall valid_die ds -> plays ds p r ->
  x_pips r + Z.of_nat (length ds) <= x_pips p /\ o_pips r = o_pips p.
Proof.
  induction ds as [|d ds IH]; intros p r W NC F P; inversion P as [|? ? ? from q ? A0 B0 H6]; subst.
  - simpl. lia.
  - inversion F as [|? ? H1 H2]; subst.
    pose proof (may_move_range A0) as Rg. pose proof (may_move_pre A0) as Pr.
    apply moved_iff in B0; [subst|apply W|lia|destruct H1; lia].
    destruct (no_contact_mv W H1 Pr NC) as (NC' & _ & _).
    destruct (IH _ _ (mv_wf W H1 Pr) NC' H2 H6) as [A B].
    rewrite (x_pips_mv W H1 Pr) in A. rewrite (o_pips_mv W H1 Pr) in B.
    destruct Pr as (_ & Px & _). destruct H1.
    split; [rewrite (Nat2Z.inj_min) in A; cbn [length]; lia|].
    rewrite B. destruct (Nat.ltb_spec d from) as [L|L]; cbn [andb]; [|lia].
    destruct (Z.eqb_spec (pt p (from - d)) (-1)) as [E|]; [|lia].
    specialize (NC from (from - d)%nat ltac:(lia) ltac:(lia) Px ltac:(lia)). lia.
Qed.

Lemma sumZ_nonneg_nat (f : nat -> Z) l : (forall i, In i l -> 0 <= f i) -> 0 <= sumZ (map f l).
Proof.
  induction l as [|a l IH]; cbn [map sumZ fold_right]; intros H; [lia|].
  pose proof (H a (or_introl eq_refl)). unfold sumZ in IH.
  assert (0 <= fold_right Z.add 0 (map f l)) by (apply IH; intros; apply H; right; auto). lia.
Qed.
Lemma x_pips_nonneg p : 0 <= x_pips p.
Proof. unfold x_pips. apply sumZ_nonneg_nat. intros. nia. Qed.
Lemma o_pips_nonneg p : 0 <= o_pips p.
Proof. unfold o_pips. apply sumZ_nonneg_nat. intros i H. apply in_seq in H. nia. Qed.

Lemma pool_length d : (2 <= length (pool d))%nat.
Proof. destruct d; simpl; lia. Qed.

(** One ply of a race. *)
Lemma race_ply N p d r : wf N p -> ongoing N p -> no_contact p -> valid_dice d -> legal_result d p r ->
  no_contact r /\ o_pips r = o_pips p /\ o_off r = o_off p /\ wf N r /\
  (x_off r = N /\ x_pips r + 1 <= x_pips p \/ x_off r < N /\ x_pips r + 2 <= x_pips p).
Proof.
  intros W O NC V (ds & L). pose proof L as (U & P & _). pose proof (uses_valid V U) as F.
  pose proof (plays_wf' N ds p r W F P) as Wr.
  destruct (plays_pips W F P) as (_ & _ & _ & _ & Eo & _).
  destruct (no_contact_plays W F P NC) as (NCr & _ & _).
  destruct (race_pips N ds p r W NC F P) as [A B].
  pose proof (wf_off_bounds Wr) as [[_ Bx] _].
  do 4 (split; auto). destruct (Z.eq_dec (x_off r) N) as [E|E].
  - left. split; auto. destruct ds as [|d0 ds]; [|cbn [length] in A; lia].
    inversion P; subst. destruct O; lia.
  - right. split; [lia|]. destruct (race_full N p d ds r W O NC V L) as [Pm|]; [|lia].
    apply Permutation_length in Pm. pose proof (pool_length d). lia.
Qed.
