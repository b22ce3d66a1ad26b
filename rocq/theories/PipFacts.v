(** Pip counts under single moves, plays and flips. *)
From Verif Require Export MoveGenProof.
From Coq Require Import Permutation.
Open Scope Z_scope.

(** Weighted sum over a list, the weight depending on the index. *)
Fixpoint ws (w : nat -> Z -> Z) (k : nat) (l : list Z) : Z :=
  match l with [] => 0 | a :: l' => w k a + ws w (S k) l' end.

Lemma ws_seq w k l :
  ws w k l = sumZ (map (fun i => w i (nth (i - k) l 0)) (seq k (length l))).
Proof.
  revert k; induction l as [|a l IH]; intros k; simpl; auto.
  rewrite Nat.sub_diag. f_equal. rewrite IH. f_equal. apply map_ext_in.
  intros i Hi. apply in_seq in Hi. f_equal.
  replace (i - k)%nat with (S (i - S k))%nat by lia. reflexivity.
Qed.

Lemma ws_upd w k l i v : (i < length l)%nat ->
  ws w k (upd l i v) = ws w k l - w (k + i)%nat (nth i l 0) + w (k + i)%nat v.
Proof.
  revert k i; induction l as [|a l IH]; intros k [|i] H; simpl in *; try lia.
  - rewrite Nat.add_0_r. lia.
  - rewrite IH by lia. replace (S k + i)%nat with (k + S i)%nat by lia. lia.
Qed.

Definition xw (i : nat) (v : Z) : Z := Z.of_nat i * Z.max 0 v.
Definition ow (i : nat) (v : Z) : Z := (25 - Z.of_nat i) * Z.max 0 (- v).

Lemma x_pips_ws p : length (pips p) = 26%nat -> x_pips p = ws xw 0 (pips p).
Proof.
  intros L. rewrite ws_seq, L. unfold x_pips. reflexivity.
Qed.
Lemma o_pips_ws p : length (pips p) = 26%nat -> o_pips p = ws ow 0 (pips p).
Proof.
  intros L. rewrite ws_seq, L. unfold o_pips. reflexivity.
Qed.

(** One move: the mover gains min(die, from); a hit checker loses its distance. *)
Lemma x_pips_mv N p d a : wf N p -> valid_die d -> pre p d a ->
  x_pips (mv p d a) = x_pips p - Z.of_nat (Nat.min d a).
Proof.
  intros W [V1 V2] (Ha & Hp & Ht). pose proof (wf_len W) as L. pose proof (wf_obar W) as OB.
  rewrite !x_pips_ws by (rewrite ?mv_length; auto). unfold mv.
  destruct (Nat.ltb_spec d a) as [H|H].
  - specialize (Ht H). destruct (Z.eqb_spec (pt p (a - d)) (-1)) as [E|E]; simpl;
    rewrite !ws_upd by (rewrite ?upd_length; lia); rewrite !nth_upd by (rewrite ?upd_length; lia);
    unfold xw; simpl Nat.add; fold (pt p a) (pt p (a - d)) (pt p 0).
    + destruct (Nat.eqb_spec (a - d) a); [lia|]. destruct (Nat.eqb_spec 0 (a - d)); [lia|].
      destruct (Nat.eqb_spec 0 a); [lia|]. fold (pt p (a - d)). rewrite E. nia.
    + destruct (Nat.eqb_spec (a - d) a); [lia|]. fold (pt p (a - d)). nia.
  - simpl. rewrite ws_upd by lia. unfold xw. simpl Nat.add. fold (pt p a). nia.
Qed.

Lemma o_pips_mv N p d a : wf N p -> valid_die d -> pre p d a ->
  o_pips (mv p d a) = o_pips p +
    (if (d <? a)%nat && (pt p (a - d) =? -1) then Z.of_nat (a - d) else 0).
Proof.
  intros W [V1 V2] (Ha & Hp & Ht). pose proof (wf_len W) as L. pose proof (wf_obar W) as OB.
  rewrite !o_pips_ws by (rewrite ?mv_length; auto). unfold mv.
  destruct (Nat.ltb_spec d a) as [H|H]; simpl.
  - specialize (Ht H). destruct (Z.eqb_spec (pt p (a - d)) (-1)) as [E|E]; simpl;
    rewrite !ws_upd by (rewrite ?upd_length; lia); rewrite !nth_upd by (rewrite ?upd_length; lia);
    unfold ow; simpl Nat.add; fold (pt p a) (pt p (a - d)) (pt p 0).
    + destruct (Nat.eqb_spec (a - d) a); [lia|]. destruct (Nat.eqb_spec 0 (a - d)); [lia|].
      destruct (Nat.eqb_spec 0 a); [lia|]. fold (pt p (a - d)). rewrite E. nia.
    + destruct (Nat.eqb_spec (a - d) a); [lia|]. fold (pt p (a - d)). nia.
  - rewrite ws_upd by lia. unfold ow. simpl Nat.add. fold (pt p a). nia.
Qed.

Lemma sumZ_seq_rev (f : nat -> Z) n :
  sumZ (map (fun i => f (n - i)%nat) (seq 0 (S n))) = sumZ (map f (seq 0 (S n))).
Proof.
  rewrite <- (sumZ_rev (map f (seq 0 (S n)))). f_equal.
  apply (nth_ext _ _ 0 0).
  - rewrite rev_length, !map_length. auto.
  - intros i Hi. rewrite map_length, seq_length in Hi.
    rewrite rev_nth by (rewrite map_length, seq_length; lia).
    rewrite map_length, seq_length.
    rewrite (nth_indep _ 0 (f (n - 0)%nat)) by (rewrite map_length, seq_length; lia).
    rewrite (map_nth (fun i => f (n - i)%nat)).
    rewrite (nth_indep _ 0 (f 0%nat)) by (rewrite map_length, seq_length; lia).
    rewrite map_nth. rewrite !seq_nth by lia. f_equal; lia.
Qed.

Lemma x_pips_flip p : length (pips p) = 26%nat -> x_pips (flipP p) = o_pips p.
Proof.
  intros L. unfold x_pips, o_pips.
  rewrite <- (sumZ_seq_rev (fun i => (25 - Z.of_nat i) * Z.max 0 (- pt p i)) 25).
  f_equal. apply map_ext_in. intros i Hi. apply in_seq in Hi.
  rewrite pt_flipP by (auto; lia). f_equal; lia.
Qed.
Lemma o_pips_flip p : length (pips p) = 26%nat -> o_pips (flipP p) = x_pips p.
Proof.
  intros L. rewrite <- (flipP_involutive p) at 2. rewrite x_pips_flip; auto.
  rewrite flipP_length. auto.
Qed.

(** o's points during x's play: unchanged, or a blot that was hit. *)
Definition o_kept (p r : position) : Prop :=
  forall i, (1 <= i <= 24)%nat ->
    (pt p i < 0 -> pt r i = pt p i \/ (pt p i = -1 /\ 0 <= pt r i)) /\
    (0 <= pt p i -> 0 <= pt r i).

Lemma sumZ_add (f g : nat -> Z) l :
  sumZ (map (fun i => f i + g i) l) = sumZ (map f l) + sumZ (map g l).
Proof. induction l; simpl; lia. Qed.

Lemma sumZ_single (c : nat -> Z) t l : NoDup l ->
  sumZ (map (fun i => if (i =? t)%nat then c i else 0) l) =
  if existsb (Nat.eqb t) l then c t else 0.
Proof.
  induction 1 as [|a l Ha ND IH]; simpl; auto. rewrite IH.
  rewrite (Nat.eqb_sym t a). destruct (Nat.eqb_spec a t) as [->|]; simpl.
  - destruct (existsb (Nat.eqb t) l) eqn:E; [|lia].
    apply existsb_exists in E. destruct E as (x & Hx & E). apply Nat.eqb_eq in E. subst. tauto.
  - destruct (existsb (Nat.eqb t) l); lia.
Qed.

Lemma lost_step N p d a : wf N p -> valid_die d -> pre p d a -> forall i, (1 <= i <= 24)%nat ->
  lost p (mv p d a) i = if (d <? a)%nat && (i =? a - d)%nat && (pt p (a - d) =? -1) then 1 else 0.
Proof.
  intros W [V1 V2] (Ha & Hp & Ht) i Hi. pose proof (wf_len W) as L. unfold lost.
  rewrite pt_mv by (auto; lia).
  destruct (Nat.eqb_spec i a) as [->|].
  - destruct (Z.eqb_spec (pt p a) (-1)); [lia|]. simpl.
    destruct (Nat.ltb_spec d a); simpl; auto. destruct (Nat.eqb_spec a (a - d)); [lia|]. auto.
  - destruct (Nat.ltb_spec d a); simpl.
    + destruct (Nat.eqb_spec i (a - d)) as [->|]; simpl.
      * destruct (Z.eqb_spec (pt p (a - d)) (-1)); simpl; auto.
      * destruct (Nat.eqb_spec i 0); [lia|]. simpl.
        destruct (Z.eqb_spec (pt p i) (-1)) as [E|]; simpl; auto. rewrite E. reflexivity.
    + destruct (Z.eqb_spec (pt p i) (-1)) as [E|]; simpl; auto. rewrite E. reflexivity.
Qed.

Lemma o_kept_step N p d a : wf N p -> valid_die d -> pre p d a -> o_kept p (mv p d a).
Proof.
  intros W [V1 V2] (Ha & Hp & Ht) i Hi. pose proof (wf_len W) as L.
  rewrite pt_mv by (auto; lia).
  destruct (Nat.eqb_spec i a) as [->|]; [lia|].
  destruct (Nat.ltb_spec d a) as [H|H]; simpl; [|lia].
  destruct (Nat.eqb_spec i (a - d)) as [->|]; simpl.
  - specialize (Ht H). destruct (Z.eqb_spec (pt p (a - d)) (-1)); lia.
  - destruct (Nat.eqb_spec i 0); [lia|]. simpl. split; intros; auto; lia.
Qed.

Lemma o_kept_refl p : o_kept p p.
Proof. intros i Hi. lia. Qed.
Lemma o_kept_trans p q r : o_kept p q -> o_kept q r -> o_kept p r.
Proof.
  intros A B i Hi. destruct (A i Hi) as [A1 A2]. destruct (B i Hi) as [B1 B2]. split; intros H.
  - destruct (A1 H) as [E|[E1 E2]].
    + rewrite E in B1. exact (B1 H).
    + right. split; auto.
  - apply B2, A2, H.
Qed.

Lemma lost_trans p q r i : o_kept p q -> o_kept q r -> (1 <= i <= 24)%nat ->
  lost p r i = lost p q i + lost q r i.
Proof.
  intros A B Hi. specialize (A i Hi). specialize (B i Hi). unfold lost.
  destruct (Z.eqb_spec (pt p i) (-1)), (Z.eqb_spec (pt q i) (-1)), (Z.leb_spec 0 (pt r i)),
    (Z.leb_spec 0 (pt q i)); simpl; lia.
Qed.

Lemma hit_distance_refl p : hit_distance p p = 0.
Proof.
  unfold hit_distance. generalize (seq 1 24). induction l as [|i l IH]; simpl; auto.
  unfold lost at 1. destruct (Z.eqb_spec (pt p i) (-1)) as [E|]; simpl; [rewrite E; simpl|]; lia.
Qed.
Lemma hit_distance_trans p q r : o_kept p q -> o_kept q r ->
  hit_distance p r = hit_distance p q + hit_distance q r.
Proof.
  intros A B. unfold hit_distance. rewrite <- sumZ_add. f_equal. apply map_ext_in.
  intros i Hi. apply in_seq in Hi. rewrite (lost_trans A B) by lia. lia.
Qed.

Lemma hit_distance_step N p d a : wf N p -> valid_die d -> pre p d a ->
  hit_distance p (mv p d a) =
  if (d <? a)%nat && (pt p (a - d) =? -1) then Z.of_nat (a - d) else 0.
Proof.
  intros W V P. pose proof P as (Ha & Hp & Ht). destruct V as [V1 V2].
  unfold hit_distance.
  transitivity (sumZ (map (fun i => if (i =? a - d)%nat then
     (if (d <? a)%nat && (pt p (a - d) =? -1) then Z.of_nat i else 0) else 0) (seq 1 24))).
  - f_equal. apply map_ext_in. intros i Hi. apply in_seq in Hi.
    rewrite (lost_step W (conj V1 V2) P) by lia.
    destruct (Nat.eqb_spec i (a - d)), (Nat.ltb_spec d a), (Z.eqb_spec (pt p (a - d)) (-1)); simpl; lia.
  - rewrite sumZ_single by apply seq_NoDup.
    destruct (existsb (Nat.eqb (a - d)) (seq 1 24)) eqn:E; auto.
    destruct (Nat.ltb_spec d a) as [H|H]; simpl; auto.
    assert (existsb (Nat.eqb (a - d)) (seq 1 24) = true); [|congruence].
    apply existsb_exists. exists (a - d)%nat. split; [apply in_seq; lia|apply Nat.eqb_refl].
Qed.

Lemma plays_pips N ds : forall p r, wf N p -> Forall valid_die ds -> plays ds p r ->
  x_pips r <= x_pips p /\ x_pips p - dice_sum ds <= x_pips r /\ x_off p <= x_off r /\
  (x_off r = x_off p -> x_pips r = x_pips p - dice_sum ds) /\
  o_off r = o_off p /\ turn r = turn p /\
  o_kept p r /\ o_pips r = o_pips p + hit_distance p r.
Proof.
  induction ds as [|d ds IH]; intros p r W F P; inversion P; subst.
  - rewrite hit_distance_refl. unfold dice_sum. simpl. repeat split; try lia.
  - inversion F as [|? ? V F']; subst. pose proof (wf_len W) as L.
    match goal with X : may_move _ _ _ |- _ => rename X into M end.
    match goal with X : moved _ _ _ _ |- _ => rename X into Q end.
    pose proof (may_move_range M) as R. destruct V as [V1 V2].
    apply moved_iff in Q; auto. subst.
    pose proof (may_move_pre M) as PR.
    assert (V : valid_die d) by (split; auto).
    match goal with X : plays _ (mv _ _ _) _ |- _ => rename X into P' end.
    specialize (IH _ _ (may_wf W V M) F' P').
    destruct IH as (I1 & I2 & I3 & I4 & I5 & I6 & I7 & I8).
    pose proof (x_pips_mv W V PR) as X. pose proof (o_pips_mv W V PR) as O.
    pose proof (hit_distance_step W V PR) as HD.
    pose proof (o_kept_step W V PR) as K.
    pose proof (hit_distance_trans K I7) as HT.
    rewrite mv_xoff in *. rewrite mv_ooff in *. rewrite mv_turn in *.
    assert (E : dice_sum (d :: ds) = Z.of_nat d + dice_sum ds) by reflexivity.
    split; [lia|]. split; [lia|]. split; [destruct (from <=? d)%nat; lia|]. split.
    + intros E0. destruct (Nat.leb_spec from d); [lia|]. rewrite I4 by lia. lia.
    + split; auto. split; auto. split; [eapply o_kept_trans; eauto|]. lia.
Qed.
