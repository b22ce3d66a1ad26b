(** Property C71: weighted choices with real 32-bit floats.  These theorems use Flocq, and through it the
    axioms of the standard library's real numbers. *)
From Coq Require Import Reals Lra Lia.
From Flocq Require Import Core Relative Plus_error IEEE754.BinarySingleNaN.
From Verif Require Import SpecChances FloatFacts.
Unset Implicit Arguments.
Open Scope R_scope.

Definition sum_code (chances : list f32) : f32 := sum_from (B754_zero false) chances.
Definition pre (chances : list f32) (k : nat) : R := value (sum_code (firstn k chances)).

Lemma sum_from_app : forall l l' s, sum_from s (l ++ l') = sum_from (sum_from s l) l'.
Proof. intros. unfold sum_from. apply fold_left_app. Qed.

Lemma Forall_firstn_ : forall A (P : A -> Prop) n l, Forall P l -> Forall P (firstn n l).
Proof. intros A P n l H. rewrite <- (firstn_skipn n l) in H. apply Forall_app in H. tauto. Qed.
Lemma Forall_skipn_ : forall A (P : A -> Prop) n l, Forall P l -> Forall P (skipn n l).
Proof. intros A P n l H. rewrite <- (firstn_skipn n l) in H. apply Forall_app in H. tauto. Qed.

Lemma prefix_finite : forall l k, is_finite (sum_code l) = true -> is_finite (sum_code (firstn k l)) = true.
Proof.
  intros l k H. rewrite <- (firstn_skipn k l) in H. unfold sum_code in *. rewrite sum_from_app in H.
  eapply sum_finite_start; eauto.
Qed.

Lemma pre_mono : forall l i j, Forall chance l -> is_finite (sum_code l) = true -> (i <= j)%nat ->
  pre l i <= pre l j.
Proof.
  intros l i j HC HF Hij. unfold pre.
  rewrite <- (firstn_skipn i (firstn j l)). rewrite firstn_firstn, Nat.min_l by lia.
  unfold sum_code. rewrite sum_from_app. apply sum_ge.
  - apply Forall_skipn_, Forall_firstn_; auto.
  - rewrite <- sum_from_app. pose proof (prefix_finite l j HF) as H. unfold sum_code in H.
    rewrite <- (firstn_skipn i (firstn j l)) in H. rewrite firstn_firstn, Nat.min_l in H by lia. exact H.
Qed.

Lemma pre_0 : forall l, pre l 0 = 0.
Proof. reflexivity. Qed.
Lemma pre_all : forall l k, (length l <= k)%nat -> pre l k = value (sum_code l).
Proof. intros. unfold pre. rewrite firstn_all2; auto. Qed.

Lemma firstn_S_nth : forall A (l : list A) i c, nth_error l i = Some c -> firstn (S i) l = firstn i l ++ (c :: nil).
Proof.
  intros A l. induction l as [|a l IH]; intros [|i] c H; cbn in *; try discriminate.
  - injection H as ->. reflexivity.
  - f_equal. apply IH; auto.
Qed.

Lemma pre_step : forall l i c, Forall chance l -> is_finite (sum_code l) = true -> nth_error l i = Some c ->
  pre l (S i) = rnd (pre l i + value c).
Proof.
  intros l i c HC HF H. unfold pre. pose proof (prefix_finite l (S i) HF) as F1. pose proof (prefix_finite l i HF) as F0.
  rewrite (firstn_S_nth _ _ _ _ H) in *. unfold sum_code in *. rewrite sum_from_app in *.
  cbn [sum_from fold_left] in *. apply add_correct; auto.
  rewrite Forall_forall in HC. apply nth_error_In in H. apply HC in H. apply H.
Qed.

(** The code, seen through the prefix sums. *)
Lemma choose_spec : forall m minus l r, Forall chance l -> is_finite (sum_code l) = true ->
  bpow radix2 (-106) <= value (sum_code l) -> (0 <= r < 1000000)%Z ->
  exists t k, value t = value (threshold (sum_code l) r) /\ choose_index_f32 m minus r l = Ret (Z.of_nat k) /\ (k < length l)%nat /\
    pre l k <= value t < pre l (S k).
Proof.
  intros m minus l r HC HF HS Hr.
  destruct (sum_value l (B754_zero false) (B754_zero minus) HC eq_refl eq_refl eq_refl) as [F' V'].
  fold (sum_code l) in F', V'. rewrite HF in F'. specialize (V' HF).
  set (S' := sum_from (B754_zero minus) l) in *.
  assert (HS' : bpow radix2 (-106) <= value S') by (rewrite <- V'; exact HS).
  destruct (threshold_spec S' (eq_sym F') HS' r Hr) as (Ft & Et & _).
  destruct (threshold_spec _ HF HS r Hr) as (_ & Et' & _).
  destruct (quotient_spec S' (eq_sym F') HS') as (_ & Q & _).
  destruct (quotient_spec _ HF HS) as (_ & Q' & _).
  assert (V : value (threshold S' r) = value (threshold (sum_code l) r)) by (rewrite Et, Et', Q, Q', V'; reflexivity).
  destruct (threshold_lt S' (eq_sym F') HS' r Hr) as [T0 T1].
  exists (threshold S' r).
  unfold choose_index_f32, choose_index.
  change (fold_left f32_add l (B754_zero minus)) with S'.
  change (f32_mul (f32_div S' (f32_of_u32 1000000)) (f32_of_u32 r)) with (threshold S' r).
  pose proof (loop_spec l (threshold S' r) (B754_zero false) 0 HC Ft HF T0) as L.
  destruct (choose_loop _ _ _ _ _ _) as [j|].
  - destruct L as (k & -> & Hk & B). exists k. repeat split; auto; apply B.
  - exfalso. fold (sum_code l) in L. lra.
Qed.

Lemma choose_iff : forall m minus l r i, Forall chance l -> is_finite (sum_code l) = true ->
  bpow radix2 (-106) <= value (sum_code l) -> (0 <= r < 1000000)%Z -> (i < length l)%nat ->
  (choose_index_f32 m minus r l = Ret (Z.of_nat i) <->
   pre l i <= value (threshold (sum_code l) r) < pre l (S i)).
Proof.
  intros m minus l r i HC HF HS Hr Hi.
  destruct (choose_spec m minus l r HC HF HS Hr) as (t & k & Et & -> & Hk & B). rewrite Et in B.
  split.
  - intros E. injection E as E. apply Nat2Z.inj in E. subst. exact B.
  - intros B'. destruct (Nat.lt_trichotomy i k) as [L|[->|L]]; auto; exfalso.
    + pose proof (pre_mono l (S i) k HC HF L). lra.
    + pose proof (pre_mono l (S k) i HC HF L). lra.
Qed.

(** ** Cutting the draws *)
Lemma cut : forall (P : Z -> Prop) N, (forall r, P r \/ ~ P r) -> (forall r r', (0 <= r <= r')%Z -> (r' < N)%Z -> P r' -> P r) ->
  (0 <= N)%Z -> exists a, (0 <= a <= N)%Z /\ forall r, (0 <= r < N)%Z -> (P r <-> (r < a)%Z).
Proof.
  intros P N D M H. revert M. pattern N. apply natlike_ind; auto; clear N H.
  - intros _. exists 0%Z. split; [lia|]. intros r Hr. lia.
  - intros N HN IH M. destruct IH as (a & Ha & E).
    { intros r r' Hr Hr' Hp. apply (M r r'); auto. lia. }
    destruct (D N) as [Y|Y].
    + exists (N + 1)%Z. split; [lia|]. intros r Hr. split; [lia|]. intros _. apply (M r N); auto; lia.
    + exists a. split; [lia|]. intros r Hr. destruct (Z.eq_dec r N) as [->|].
      * split; intros; [contradiction|lia].
      * apply E. lia.
Qed.

Lemma cut_bound : forall S x, is_finite S = true -> bpow radix2 (-106) <= value S -> 0 <= x <= value S ->
  exists a, (0 <= a <= 1000000)%Z /\
    (forall r, (0 <= r < 1000000)%Z -> (value (threshold S r) < x <-> (r < a)%Z)) /\
    1000000 * (x / value S) - 1/8 <= IZR a <= 1000000 * (x / value S) + 9/8.
Proof.
  intros S x FS HS Hx.
  destruct (cut (fun r => value (threshold S r) < x) 1000000) as (a & Ha & E); try lia.
  - intros r. destruct (Rlt_dec (value (threshold S r)) x); auto.
  - intros r r' Hr Hr' L. eapply Rle_lt_trans; [|exact L]. apply threshold_mono; auto.
  - exists a. split; auto. split; auto.
    pose proof (bpow_gt_0 radix2 (-106)) as P106. pose proof unit_value as U.
    set (X := 1000000 * (x / value S)).
    assert (XE : x = value S / 1000000 * X) by (unfold X; field; lra).
    assert (s0 : 0 < value S / 1000000) by (apply Rdiv_lt_0_compat; lra).
    assert (X0 : 0 <= X).
    { apply Rmult_le_reg_l with (value S / 1000000); auto. rewrite <- XE. lra. }
    assert (X1 : X <= 1000000).
    { apply Rmult_le_reg_l with (value S / 1000000); auto. rewrite <- XE. replace (value S / 1000000 * 1000000) with (value S) by field. lra. }
    assert (A1 : IZR a <= 1000000) by (apply IZR_le; lia).
    assert (A0 : 0 <= IZR a) by (apply IZR_le; lia).
    split.
    + destruct (Z.eq_dec a 1000000) as [->|N]; [lra|].
      destruct (threshold_spec S FS HS a ltac:(lia)) as (_ & _ & _ & B).
      assert (~ value (threshold S a) < x) as G by (rewrite E by lia; lia).
      apply Rnot_lt_le in G.
      assert (X <= IZR a * ((1 + unit_) * (1 + unit_))).
      { apply Rmult_le_reg_l with (value S / 1000000); auto. rewrite <- XE, <- Rmult_assoc. lra. }
      assert (IZR a * ((1 + unit_) * (1 + unit_)) <= IZR a + 1/8).
      { rewrite U. lra. }
      lra.
    + destruct (Z.eq_dec a 0) as [->|N]; [lra|].
      destruct (threshold_spec S FS HS (a - 1) ltac:(lia)) as (_ & _ & B & _).
      assert (value (threshold S (a - 1)) < x) as G by (apply E; lia).
      assert (EA : IZR (a - 1) = IZR a - 1) by (rewrite minus_IZR; reflexivity). rewrite EA in *.
      assert ((IZR a - 1) * ((1 - unit_) * (1 - unit_)) <= X).
      { apply Rmult_le_reg_l with (value S / 1000000); auto. rewrite <- XE, <- Rmult_assoc. lra. }
      assert (IZR a - 1 - 1/8 <= (IZR a - 1) * ((1 - unit_) * (1 - unit_))).
      { rewrite U. lra. }
      lra.
Qed.

Lemma u_ro_24 : u_ro radix2 24 = unit_.
Proof. unfold u_ro. rewrite unit_value. cbn. lra. Qed.

Lemma step_error : forall l i c, Forall chance l -> is_finite (sum_code l) = true -> nth_error l i = Some c ->
  Rabs (pre l (S i) - pre l i - value c) <= unit_ * pre l (S i).
Proof.
  intros l i c HC HF H. pose proof (pre_step l i c HC HF H) as E.
  destruct (FLT_plus_error_N_round_ex radix2 (-149) 24 (prec_gt_0_ := f32_prec) (fun n => negb (Z.even n)) (pre l i) (value c)) as (e & He & E');
    try apply form_value.
  fold rnd in E'. rewrite <- E in E'. rewrite u_ro_24 in He.
  assert (P : 0 <= pre l (S i)) by (rewrite <- (pre_0 l); apply pre_mono; auto; lia).
  replace (pre l (S i) - pre l i - value c) with (- (e * pre l (S i))) by lra.
  rewrite Rabs_Ropp, Rabs_mult, (Rabs_pos_eq (pre l (S i))) by auto.
  apply Rmult_le_compat_r; auto.
Qed.

(** ** C71 *)

(** When the sum computed by the code is an ordinary number of at least 2^-106, the draws that pick an
    index are consecutive, and their number is in proportion to its chance, up to 4/3 of a draw. *)
Theorem C71_proportional_to_computed_sum : forall m minus chances i c,
  let S := fold_left f32_add chances (B754_zero false) in
  Forall chance chances -> is_finite S = true -> bpow radix2 (-106) <= value S ->
  nth_error chances i = Some c ->
  exists a b, draws_between (fun r => choose_index_f32 m minus r chances = Ret (Z.of_nat i)) a b /\
    Rabs (IZR (b - a) - 1000000 * (value c / value S)) <= 4/3.
Proof.
  intros m minus l i c S HC HF HS Hc.
  change S with (sum_code l) in *. clear S.
  assert (Hi : (i < length l)%nat) by (apply nth_error_Some; congruence).
  pose proof (bpow_gt_0 radix2 (-106)) as P106. pose proof unit_value as U.
  assert (B0 : forall k, 0 <= pre l k <= value (sum_code l)).
  { intros k. split; [rewrite <- (pre_0 l); apply pre_mono; auto; lia|].
    destruct (le_lt_dec (length l) k); [rewrite pre_all; auto; lra|].
    rewrite <- (pre_all l (length l)); auto. apply pre_mono; auto; lia. }
  destruct (cut_bound _ (pre l i) HF HS (B0 i)) as (a & Ha & Ea & Ba).
  destruct (cut_bound _ (pre l (S i)) HF HS (B0 (S i))) as (b & Hb & Eb & Bb).
  assert (AB : (a <= b)%Z).
  { destruct (Z_le_gt_dec a b); auto. exfalso.
    assert (value (threshold (sum_code l) b) < pre l i) as L by (apply Ea; lia).
    pose proof (pre_mono l i (S i) HC HF ltac:(lia)).
    assert (value (threshold (sum_code l) b) < pre l (S i)) as L' by lra.
    apply Eb in L'; lia. }
  exists a, b. split.
  - split; [lia|]. split; [lia|]. intros r Hr.
    rewrite (choose_iff m minus l r i HC HF HS Hr Hi). rewrite <- (Eb r Hr).
    pose proof (Ea r Hr) as [A1 A2].
    split; intros [X Y]; split; auto.
    + destruct (Z_lt_ge_dec r a) as [L|]; [|lia]. apply A2 in L. lra.
    + apply Rnot_lt_le. intros L. apply A1 in L. lia.
  - rewrite minus_IZR. pose proof (step_error l i c HC HF Hc) as SE.
    apply Rabs_le_inv in SE.
    set (s := value (sum_code l)) in *.
    assert (s0 : 0 < s) by lra.
    assert (D : forall x y, x <= y -> x / s <= y / s).
    { intros. apply Rmult_le_compat_r; auto. left. apply Rinv_0_lt_compat; auto. }
    destruct (B0 (S i)) as [_ B1].
    assert (SE1 : pre l (S i) / s - pre l i / s - value c / s <= unit_).
    { replace (pre l (S i) / s - pre l i / s - value c / s) with ((pre l (S i) - pre l i - value c) / s) by (field; lra).
      replace unit_ with (unit_ * s / s) by (field; lra). apply D.
      apply Rle_trans with (unit_ * pre l (S i)); [apply SE|]. apply Rmult_le_compat_l; [rewrite U; lra|auto]. }
    assert (SE2 : - unit_ <= pre l (S i) / s - pre l i / s - value c / s).
    { replace (pre l (S i) / s - pre l i / s - value c / s) with ((pre l (S i) - pre l i - value c) / s) by (field; lra).
      replace (- unit_) with (- (unit_ * s) / s) by (field; lra). apply D.
      apply Rle_trans with (- (unit_ * pre l (S i))); [|apply SE]. apply Ropp_le_contravar, Rmult_le_compat_l; [rewrite U; lra|auto]. }
    rewrite U in SE1, SE2. apply Rabs_le. lra.
Qed.

(** ... and an index without a chance is never picked, nor anything outside the list. *)
Theorem C71_only_real_chances : forall m minus chances r,
  let S := fold_left f32_add chances (B754_zero false) in
  Forall chance chances -> is_finite S = true -> bpow radix2 (-106) <= value S ->
  (0 <= r < 1000000)%Z ->
  exists i c, choose_index_f32 m minus r chances = Ret (Z.of_nat i) /\ nth_error chances i = Some c /\ 0 < value c.
Proof.
  intros m minus l r S HC HF HS Hr. change S with (sum_code l) in *. clear S.
  destruct (choose_spec m minus l r HC HF HS Hr) as (t & k & Et & E & Hk & B).
  destruct (nth_error l k) as [c|] eqn:Hc; [|apply nth_error_None in Hc; lia].
  exists k, c. split; auto. split; auto.
  assert (C : chance c) by (rewrite Forall_forall in HC; apply HC; eapply nth_error_In; eauto).
  destruct C as [_ P]. destruct P as [P|P]; auto. exfalso.
  rewrite (pre_step l k c HC HF Hc) in B. rewrite <- P, Rplus_0_r in B.
  rewrite rnd_form in B by apply form_value. lra.
Qed.

(** ** From the exact total to the computed sum *)
Lemma total_cons : forall c l, total (c :: l) = value c + total l.
Proof. reflexivity. Qed.
Lemma total_nonneg : forall l, Forall chance l -> 0 <= total l.
Proof. induction l as [|c l IH]; intros H; [cbn; lra|]. inversion H as [|? ? [_ P] H']; subst. rewrite total_cons. specialize (IH H'). lra. Qed.

Lemma add_step : forall s c : f32, is_finite s = true -> is_finite c = true -> 0 <= value s -> 0 <= value c ->
  is_finite (f32_add s c) = true -> Rabs (value (f32_add s c) - (value s + value c)) <= unit_ * value (f32_add s c).
Proof.
  intros s c Fs Fc Ps Pc F. pose proof (add_correct s c Fs Fc F) as E.
  destruct (FLT_plus_error_N_round_ex radix2 (-149) 24 (prec_gt_0_ := f32_prec) (fun n => negb (Z.even n)) (value s) (value c)) as (e & He & E');
    try apply form_value.
  fold rnd in E'. rewrite <- E in E'. rewrite u_ro_24 in He.
  assert (P : 0 <= value (f32_add s c)).
  { apply Rle_trans with (value s); auto. apply add_ge; auto. split; auto. }
  replace (value (f32_add s c) - (value s + value c)) with (- (e * value (f32_add s c))) by lra.
  rewrite Rabs_Ropp, Rabs_mult, (Rabs_pos_eq (value (f32_add s c))) by auto.
  apply Rmult_le_compat_r; auto.
Qed.

Lemma sum_error : forall l s, Forall chance l -> is_finite (sum_from s l) = true -> 0 <= value s ->
  Rabs (value (sum_from s l) - (value s + total l)) <= INR (length l) * unit_ * value (sum_from s l).
Proof.
  induction l as [|c l IH]; intros s HC HF Hs.
  - cbn. replace (value s - (value s + 0)) with 0 by ring. rewrite Rabs_R0. lra.
  - inversion HC as [|? ? [Fc Pc] HC']; subst. cbn [sum_from fold_left] in *. fold (sum_from (f32_add s c) l) in *.
    pose proof (sum_finite_start _ _ HF) as F1. pose proof (add_finite_l _ _ F1) as F0.
    pose proof (add_step s c F0 Fc Hs Pc F1) as A.
    assert (P : value s <= value (f32_add s c)) by (apply add_ge; auto; split; auto).
    specialize (IH _ HC' HF ltac:(lra)).
    pose proof (sum_ge l _ HC' HF) as G.
    set (x := value (sum_from (f32_add s c) l)) in *. set (y := value (f32_add s c)) in *.
    rewrite total_cons. change (length (c :: l)) with (S (length l)). rewrite S_INR.
    replace (x - (value s + (value c + total l))) with ((x - (y + total l)) + (y - (value s + value c))) by ring.
    eapply Rle_trans; [apply Rabs_triang|].
    assert (unit_ * y <= unit_ * x) by (apply Rmult_le_compat_l; [rewrite unit_value; lra|auto]).
    lra.
Qed.

Lemma add_finite_small : forall s c : f32, is_finite s = true -> is_finite c = true -> 0 <= value s -> 0 <= value c ->
  value s + value c <= bpow radix2 127 -> is_finite (f32_add s c) = true.
Proof.
  intros s c Fs Fc Ps Pc H.
  pose proof (@Bplus_correct 24 128 f32_prec f32_emax mode_NE s c Fs Fc) as X.
  fold (f32_add s c) in X.
  change (round radix2 (SpecFloat.fexp 24 128) (round_mode mode_NE)) with rnd in X.
  change (B2R s) with (value s) in X. change (B2R c) with (value c) in X.
  assert (0 <= rnd (value s + value c)).
  { rewrite <- (rnd_form 0) by apply generic_format_0. apply rnd_le. lra. }
  rewrite Rlt_bool_true in X; [apply X|].
  rewrite Rabs_pos_eq by auto.
  apply Rle_lt_trans with (bpow radix2 127); [|apply bpow_lt; lia].
  rewrite <- (rnd_form (bpow radix2 127)) by (apply form_bpow; lia). apply rnd_le. exact H.
Qed.

Lemma sum_finite_small : forall l s T, Forall chance l -> is_finite s = true -> 0 <= value s ->
  forall n, (Z.of_nat n + Z.of_nat (length l) <= 4194304)%Z ->
  value s <= T * (1 + 2 * (INR n * unit_)) -> forall U, T + total l <= U -> U <= bpow radix2 125 -> 0 <= T ->
  is_finite (sum_from s l) = true.
Proof.
  induction l as [|c l IH]; intros s T HC Fs Ps n Hn Hs U HU HB HT.
  - exact Fs.
  - inversion HC as [|? ? [Fc Pc] HC']; subst. cbn [sum_from fold_left]. fold (sum_from (f32_add s c) l).
    rewrite total_cons in HU. pose proof (total_nonneg l HC') as TN.
    change (length (c :: l)) with (S (length l)) in Hn.
    assert (NU : INR n * unit_ <= 1 / 4).
    { rewrite unit_value. assert (INR n <= 4194304) by (rewrite INR_IZR_INZ; apply IZR_le; lia). lra. }
    assert (NP : 0 <= INR n * unit_).
    { apply Rmult_le_pos; [apply pos_INR|rewrite unit_value; lra]. }
    assert (S2 : value s <= 2 * T).
    { eapply Rle_trans; [exact Hs|]. rewrite <- (Rmult_comm T). apply Rmult_le_compat_l; lra. }
    assert (B : 4 * bpow radix2 125 = bpow radix2 127).
    { change 127%Z with (2 + 125)%Z. rewrite bpow_plus. reflexivity. }
    assert (F1 : is_finite (f32_add s c) = true) by (apply add_finite_small; auto; lra).
    assert (P1 : value s <= value (f32_add s c)) by (apply add_ge; auto; split; auto).
    apply (IH (f32_add s c) (T + value c) HC' F1 ltac:(lra) (S n)) with (U := U); auto; try lra; try lia.
    pose proof (add_step s c Fs Fc Ps Pc F1) as A. apply Rabs_le_inv in A. destruct A as [_ A].
    set (y := value (f32_add s c)) in *.
    rewrite S_INR. set (e := INR n * unit_) in *.
    replace ((INR n + 1) * unit_) with (e + unit_) by (unfold e; ring).
    assert (UU : unit_ = / 16777216) by apply unit_value.
    assert (Y : y * (1 - unit_) <= (T + value c) * (1 + 2 * e)).
    { assert (value c * 1 <= value c * (1 + 2 * e)) by (apply Rmult_le_compat_l; lra).
      rewrite Rmult_plus_distr_r. lra. }
    apply Rmult_le_reg_r with (1 - unit_); [rewrite UU; lra|].
    eapply Rle_trans; [exact Y|]. rewrite Rmult_assoc. apply Rmult_le_compat_l; [lra|].
    assert (2 * unit_ * (e + unit_) <= unit_).
    { replace (2 * unit_ * (e + unit_)) with (unit_ * (2 * (e + unit_))) by ring.
      rewrite <- (Rmult_1_r unit_) at 3. apply Rmult_le_compat_l; rewrite UU; lra. }
    lra.
Qed.

(** At most 2^22 chances whose exact total is between 2^-105 and 2^125: the draws that pick an index are
    consecutive, and their number is in proportion to its chance, up to 4/3 + n/16 draws in a million. *)
Theorem C71_proportional : forall m minus chances i c,
  Forall chance chances -> (Z.of_nat (length chances) <= 4194304)%Z ->
  bpow radix2 (-105) <= total chances <= bpow radix2 125 ->
  nth_error chances i = Some c ->
  exists a b, draws_between (fun r => choose_index_f32 m minus r chances = Ret (Z.of_nat i)) a b /\
    Rabs (IZR (b - a) - 1000000 * (value c / total chances)) <= 4/3 + INR (length chances) / 16.
Proof.
  intros m minus l i c HC HL [T0 T1] Hc.
  pose proof (bpow_gt_0 radix2 (-105)) as P105.
  assert (HF : is_finite (sum_from (B754_zero false) l) = true).
  { apply (sum_finite_small l (B754_zero false) 0 HC eq_refl) with (n := 0%nat) (U := total l); try lra; try lia.
    - cbn. lra.
    - cbn. lra. }
  pose proof (sum_error l (B754_zero false) HC HF ltac:(cbn; lra)) as SE.
  rewrite value_zero, Rplus_0_l in SE. apply Rabs_le_inv in SE.
  set (S := sum_from (B754_zero false) l) in *.
  set (n := INR (length l)) in *.
  assert (N0 : 0 <= n) by apply pos_INR.
  assert (N1 : n <= 4194304) by (unfold n; rewrite INR_IZR_INZ; apply IZR_le; lia).
  assert (U : unit_ = / 16777216) by apply unit_value.
  assert (NU : 0 <= n * unit_ <= 1/4) by (rewrite U; lra).
  assert (SP : 0 <= value S) by (pose proof (sum_ge l _ HC HF) as G; rewrite value_zero in G; exact G).
  assert (NS : n * unit_ * value S <= 1/4 * value S) by (apply Rmult_le_compat_r; lra).
  assert (HS : bpow radix2 (-106) <= value S).
  { assert (B : 2 * bpow radix2 (-106) = bpow radix2 (-105)).
    { change (-105)%Z with (1 + -106)%Z. rewrite bpow_plus. reflexivity. }
    lra. }
  destruct (C71_proportional_to_computed_sum m minus l i c HC HF HS Hc) as (a & b & D & E).
  exists a, b. split; auto.
  change (fold_left f32_add l (B754_zero false)) with S in E.
  set (T := total l) in *. set (s := value S) in *.
  assert (C : chance c) by (rewrite Forall_forall in HC; apply HC; eapply nth_error_In; eauto).
  destruct C as [_ C0].
  assert (C1 : value c <= T).
  { unfold T. clear - HC Hc. revert i Hc. induction l as [|d l IH]; intros [|i] Hc; try discriminate; inversion HC as [|? ? [_ P] HC']; subst;
      rewrite total_cons; pose proof (total_nonneg l HC').
    - injection Hc as ->. lra.
    - specialize (IH HC' i Hc). lra. }
  assert (s0 : 0 < s) by (pose proof (bpow_gt_0 radix2 (-106)); lra).
  assert (t0 : 0 < T) by lra.
  assert (X : Rabs (value c / s - value c / T) <= n * unit_).
  { replace (value c / s - value c / T) with (value c / T * ((T - s) / s)) by (field; lra).
    rewrite Rabs_mult.
    assert (A1 : 0 <= value c / T <= 1).
    { split.
      - apply Rmult_le_pos; auto. left. apply Rinv_0_lt_compat; auto.
      - apply Rmult_le_reg_r with T; auto. replace (value c / T * T) with (value c) by (field; lra). lra. }
    assert (A2 : Rabs ((T - s) / s) <= n * unit_).
    { apply Rabs_le. split; apply Rmult_le_reg_r with s; auto; replace ((T - s) / s * s) with (T - s) by (field; lra); lra. }
    rewrite (Rabs_pos_eq (value c / T)) by apply A1.
    apply Rle_trans with (1 * Rabs ((T - s) / s)).
    - apply Rmult_le_compat_r; [apply Rabs_pos|apply A1].
    - lra. }
  apply Rabs_le_inv in X. apply Rabs_le_inv in E. rewrite U in X. apply Rabs_le. lra.
Qed.

(** ** Outside that range *)

Lemma loop_never : forall t l s i, (forall x : f32, (is_finite x = true /\ 0 <= value x \/ x = B754_infinity false) -> f32_gt x t = false) ->
  Forall chance l -> (is_finite s = true /\ 0 <= value s \/ s = B754_infinity false) ->
  choose_loop f32_add f32_gt t s i l = None.
Proof.
  intros t l. induction l as [|c l IH]; intros s i HT HC Hs; auto.
  inversion HC as [|? ? [Fc Pc] HC']; subst. cbn [choose_loop].
  assert (N : is_finite (f32_add s c) = true /\ 0 <= value (f32_add s c) \/ f32_add s c = B754_infinity false).
  { destruct Hs as [[Fs Ps]| ->].
    - pose proof (@Bplus_correct 24 128 f32_prec f32_emax mode_NE s c Fs Fc) as X. fold (f32_add s c) in X.
      change (round radix2 (SpecFloat.fexp 24 128) (round_mode mode_NE)) with rnd in X.
      change (B2R s) with (value s) in X. change (B2R c) with (value c) in X.
      destruct (Rlt_bool_spec (Rabs (rnd (value s + value c))) (bpow radix2 128)) as [L|L].
      + left. destruct X as (X1 & X2 & _). split; auto. unfold value. rewrite X1.
        rewrite <- (rnd_form 0) by apply generic_format_0. apply rnd_le. lra.
      + right. destruct X as (X1 & _).
        assert (G : Bsign s = false).
        { destruct (Bsign s) eqn:E; auto. exfalso.
          assert (value s <= 0).
          { destruct s as [[]|[]| |[] mx ex B]; try discriminate; cbn; try lra.
            left. unfold value. cbn. apply F2R_lt_0. reflexivity. }
          assert (Z0 : value s = 0) by lra.
          rewrite Z0, Rplus_0_l, rnd_value, Rabs_pos_eq in L by auto.
          pose proof (value_lt_max c). lra. }
        rewrite G in X1. destruct (f32_add s c) as [| [] | |]; cbn in X1; try discriminate. reflexivity.
    - right. destruct c as [| | |]; try discriminate; reflexivity. }
  rewrite (HT _ N). apply IH; auto.
Qed.

Lemma gt_infinity : forall x : f32, (is_finite x = true /\ 0 <= value x \/ x = B754_infinity false) -> f32_gt x (B754_infinity false) = false.
Proof. intros x [[F _]| ->]; [|reflexivity]. destruct x as [[]|[]| |[] mx ex B]; try discriminate; reflexivity. Qed.

Lemma gt_nan : forall x : f32, f32_gt x B754_nan = false.
Proof. intros x. destruct x as [[]|[]| |[] mx ex B]; reflexivity. Qed.

Lemma sum_from_cases : forall l s, Forall chance l -> (is_finite s = true /\ 0 <= value s \/ s = B754_infinity false) ->
  is_finite (sum_from s l) = false -> sum_from s l = B754_infinity false.
Proof.
  induction l as [|c l IH]; intros s HC Hs HF.
  - cbn in *. destruct Hs as [[F _]|E]; auto. congruence.
  - inversion HC as [|? ? [Fc Pc] HC']; subst. cbn [sum_from fold_left] in *. fold (sum_from (f32_add s c) l) in *.
    apply IH; auto.
    destruct Hs as [[Fs Ps]| ->].
    + destruct (is_finite (f32_add s c)) eqn:F1.
      * left. split; auto. apply Rle_trans with (value s); auto. apply add_ge; auto. split; auto.
      * right.
        pose proof (@Bplus_correct 24 128 f32_prec f32_emax mode_NE s c Fs Fc) as X. fold (f32_add s c) in X.
        change (round radix2 (SpecFloat.fexp 24 128) (round_mode mode_NE)) with rnd in X.
        change (B2R s) with (value s) in X. change (B2R c) with (value c) in X.
        destruct (Rlt_bool_spec (Rabs (rnd (value s + value c))) (bpow radix2 128)) as [L|L].
        { destruct X as (_ & X & _). congruence. }
        destruct X as (X1 & _).
        assert (G : Bsign s = false).
        { destruct (Bsign s) eqn:E; auto. exfalso.
          assert (value s <= 0).
          { destruct s as [[]|[]| |[] mx ex B]; try discriminate; cbn; try lra.
            left. unfold value. cbn. apply F2R_lt_0. reflexivity. }
          assert (Z0 : value s = 0) by lra.
          rewrite Z0, Rplus_0_l, rnd_value, Rabs_pos_eq in L by auto.
          pose proof (value_lt_max c). lra. }
        rewrite G in X1. destruct (f32_add s c) as [| [] | |]; cbn in X1; try discriminate. reflexivity.
    + right. destruct c as [| | |]; try discriminate; reflexivity.
Qed.

Lemma threshold_infinite : forall r, (0 <= r < 1000000)%Z ->
  threshold (B754_infinity false) r = B754_nan \/ threshold (B754_infinity false) r = B754_infinity false.
Proof.
  intros r Hr. unfold threshold.
  assert (E : f32_div (B754_infinity false) (f32_of_u32 1000000) = B754_infinity false).
  { destruct ten6_exact as [V F].
    assert (W : Bsign (f32_of_u32 1000000) = false) by reflexivity.
    destruct (f32_of_u32 1000000) as [|? | |[]]; try discriminate; try reflexivity.
    all: cbn in W; subst; reflexivity. }
  rewrite E.
  destruct (of_u32_exact r ltac:(lia)) as [V F].
  assert (R0 : 0 <= IZR r) by (apply IZR_le; lia).
  destruct (f32_of_u32 r) as [[]|[]| |[] mx ex B]; try discriminate; auto.
  exfalso. assert (value (B754_finite true mx ex B) < 0); [|lra]. unfold value. cbn. apply F2R_lt_0. reflexivity.
Qed.

Lemma threshold_zero : forall S r, is_finite S = true -> value S = 0 -> (0 <= r < 1000000)%Z ->
  is_finite (threshold S r) = true /\ value (threshold S r) = 0.
Proof.
  intros S r FS VS Hr. unfold threshold.
  destruct ten6_exact as [V6 F6]. destruct (of_u32_exact r ltac:(lia)) as [Vr Fr].
  pose proof (bpow_gt_0 radix2 128) as P.
  assert (Q : is_finite (f32_div S (f32_of_u32 1000000)) = true /\ value (f32_div S (f32_of_u32 1000000)) = 0).
  { pose proof (@Bdiv_correct 24 128 f32_prec f32_emax mode_NE S (f32_of_u32 1000000)) as H.
    fold (f32_div S (f32_of_u32 1000000)) in H. set (q := f32_div S (f32_of_u32 1000000)) in *.
    change (B2R (f32_of_u32 1000000)) with (value (f32_of_u32 1000000)) in H. rewrite V6 in H.
    change (round radix2 (SpecFloat.fexp 24 128) (round_mode mode_NE)) with rnd in H.
    change (B2R S) with (value S) in H. rewrite VS in H.
    replace (0 / 1000000) with 0 in H by lra.
    rewrite (rnd_form 0) in H by apply generic_format_0. rewrite Rabs_R0, Rlt_bool_true in H by auto.
    destruct (H ltac:(lra)) as (H1 & H2 & _). rewrite FS in H2. split; auto. }
  destruct Q as [Fq Vq]. set (q := f32_div S (f32_of_u32 1000000)) in *.
  pose proof (@Bmult_correct 24 128 f32_prec f32_emax mode_NE q (f32_of_u32 r)) as H.
  fold (f32_mul q (f32_of_u32 r)) in H.
  change (round radix2 (SpecFloat.fexp 24 128) (round_mode mode_NE)) with rnd in H.
  change (B2R q) with (value q) in H. rewrite Vq, Rmult_0_l in H.
  rewrite (rnd_form 0) in H by apply generic_format_0. rewrite Rabs_R0, Rlt_bool_true in H by auto.
  destruct H as (H1 & H2 & _). rewrite Fq, Fr in H2. split; auto.
Qed.

Lemma total_zero : forall l, Forall chance l -> total l = 0 -> Forall (fun c => value c = 0) l.
Proof.
  induction l as [|c l IH]; intros HC T; constructor; inversion HC as [|? ? [_ P] HC']; subst; rewrite total_cons in T;
    pose proof (total_nonneg l HC').
  - lra.
  - apply IH; auto. lra.
Qed.

Lemma sum_zero : forall l s, Forall chance l -> Forall (fun c => value c = 0) l -> is_finite s = true -> value s = 0 ->
  is_finite (sum_from s l) = true /\ value (sum_from s l) = 0.
Proof.
  induction l as [|c l IH]; intros s HC HZ Fs Vs; [auto|].
  inversion HC as [|? ? [Fc Pc] HC']; subst. inversion HZ as [|? ? Vc HZ']; subst.
  cbn [sum_from fold_left]. fold (sum_from (f32_add s c) l).
  assert (F1 : is_finite (f32_add s c) = true).
  { apply add_finite_small; auto; try lra. rewrite Vs, Vc, Rplus_0_r. apply bpow_ge_0. }
  apply IH; auto. rewrite add_correct; auto. rewrite Vs, Vc, Rplus_0_r. apply rnd_form, generic_format_0.
Qed.

Lemma loop_zero : forall t l s i, is_finite t = true -> value t = 0 -> Forall chance l -> Forall (fun c => value c = 0) l ->
  is_finite s = true -> value s = 0 -> choose_loop f32_add f32_gt t s i l = None.
Proof.
  intros t l. induction l as [|c l IH]; intros s i Ft Vt HC HZ Fs Vs; auto.
  inversion HC as [|? ? C HC']; subst. inversion HZ as [|? ? Vc HZ']; subst.
  destruct (sum_zero (c :: nil) s) as [F1 V1]; auto. cbn in F1, V1.
  cbn [choose_loop]. destruct (f32_gt (f32_add s c) t) eqn:G.
  - apply gt_correct in G; auto. lra.
  - apply IH; auto.
Qed.

(** Chances that are all zero, or whose sum overflows: every draw picks the last index. *)
Theorem C71_otherwise_last : forall m minus chances r,
  chances <> nil -> (Z.of_nat (length chances) <= 2 ^ 64)%Z -> Forall chance chances ->
  total chances = 0 \/ is_finite (fold_left f32_add chances (B754_zero false)) = false ->
  (0 <= r < 1000000)%Z ->
  choose_index_f32 m minus r chances = Ret (Z.of_nat (length chances) - 1)%Z.
Proof.
  intros m minus l r NE HL HC HT Hr. unfold choose_index_f32, choose_index.
  change (fold_left f32_add l (B754_zero minus)) with (sum_from (B754_zero minus) l).
  change (f32_mul (f32_div (sum_from (B754_zero minus) l) (f32_of_u32 1000000)) (f32_of_u32 r))
    with (threshold (sum_from (B754_zero minus) l) r).
  assert (Z0 : forall s, is_finite (B754_zero s : f32) = true /\ 0 <= value (B754_zero s) \/ (B754_zero s : f32) = B754_infinity false).
  { intros s. left. split; [reflexivity|]. rewrite value_zero. lra. }
  assert (N : choose_loop f32_add f32_gt (threshold (sum_from (B754_zero minus) l) r) (B754_zero false) 0 l = None).
  { destruct HT as [HT|HT].
    - pose proof (total_zero l HC HT) as HZ.
      destruct (sum_zero l (B754_zero minus) HC HZ eq_refl eq_refl) as [FS VS].
      destruct (threshold_zero _ r FS VS Hr) as [Ft Vt].
      apply loop_zero; auto.
    - destruct (sum_value l (B754_zero false) (B754_zero minus) HC eq_refl eq_refl eq_refl) as [F' _].
      change (fold_left f32_add l (B754_zero false)) with (sum_from (B754_zero false) l) in HT. rewrite HT in F'.
      rewrite (sum_from_cases l (B754_zero minus) HC (Z0 minus) (eq_sym F')).
      apply loop_never; auto.
      destruct (threshold_infinite r Hr) as [-> | ->]; [intros; apply gt_nan|apply gt_infinity]. }
  rewrite N. unfold u64.
  assert (1 <= Z.of_nat (length l))%Z by (destruct l; [congruence|cbn; lia]).
  unfold in_u64. destruct (0 <=? Z.of_nat (length l) - 1)%Z eqn:E1; destruct (Z.of_nat (length l) - 1 <? 2 ^ 64)%Z eqn:E2; try lia; reflexivity.
Qed.

(** ** Examples *)

Definition weights (l : list Z) : list f32 := map f32_of_u32 l.

Lemma weights_chances : forall l, Forall (fun n => 0 <= n < 2 ^ 24)%Z l -> Forall chance (weights l).
Proof.
  intros l H. unfold weights. apply Forall_forall. intros c Hc. apply in_map_iff in Hc. destruct Hc as (n & <- & Hn).
  rewrite Forall_forall in H. specialize (H n Hn). destruct (of_u32_exact n H) as [V F]. split; auto. rewrite V. apply IZR_le. lia.
Qed.

(** The chances 1, 0, 3: the last index is picked by 750000 of a million draws, up to one. *)
Example C71_one_zero_three : forall m minus, exists a b,
  draws_between (fun r => choose_index_f32 m minus r (weights (1 :: 0 :: 3 :: nil)%Z) = Ret 2%Z) a b /\
  (749999 <= b - a <= 750001)%Z.
Proof.
  intros m minus.
  destruct (of_u32_exact 1 ltac:(lia)) as [V1 _]. destruct (of_u32_exact 0 ltac:(lia)) as [V0 _]. destruct (of_u32_exact 3 ltac:(lia)) as [V3 _].
  assert (T : total (weights (1 :: 0 :: 3 :: nil)%Z) = 4).
  { unfold total, weights. cbn [map fold_right]. rewrite V1, V0, V3. lra. }
  destruct (C71_proportional m minus (weights (1 :: 0 :: 3 :: nil)%Z) 2 (f32_of_u32 3)) as (a & b & D & E).
  - apply weights_chances. repeat constructor; lia.
  - cbn. lia.
  - rewrite T. split.
    + apply Rle_trans with (bpow radix2 2); [apply bpow_le; lia|cbn; lra].
    + apply Rle_trans with (bpow radix2 2); [cbn; lra|apply bpow_le; lia].
  - reflexivity.
  - exists a, b. split; [exact D|]. rewrite T, V3 in E. cbn [length weights map] in E.
    apply Rabs_le_inv in E. cbn [INR] in E.
    assert (749998 < IZR (b - a) < 750002) as [A B] by (cbn in E; lra).
    apply lt_IZR in A. apply lt_IZR in B. lia.
Qed.

(** Below the range the last index can be picked although its chance is zero: the chances 600000 * 2^-149 and
    0, draw 700000. *)
Example C71_tiny_total : forall m minus,
  choose_index_f32 m minus 700000 (binary_normalize 24 128 f32_prec f32_emax mode_NE 600000 (-149) false :: f32_of_u32 0 :: nil)
  = Ret 1%Z.
Proof. intros [] []; vm_compute; reflexivity. Qed.

(** Above it too: 2^127, 2^127 and 0 pick index 2 at every draw. *)
Example C71_huge_total : forall m minus r, (0 <= r < 1000000)%Z ->
  let big := binary_normalize 24 128 f32_prec f32_emax mode_NE 1 127 false in
  choose_index_f32 m minus r (big :: big :: f32_of_u32 0 :: nil) = Ret 2%Z.
Proof.
  intros m minus r Hr big.
  apply (C71_otherwise_last m minus (big :: big :: f32_of_u32 0 :: nil) r); auto.
  - discriminate.
  - cbn. lia.
  - assert (chance big).
    { split; [reflexivity|]. unfold value, big. cbn. left. apply F2R_gt_0. reflexivity. }
    constructor; [exact H|]. constructor; [exact H|]. constructor; [|constructor].
    destruct (of_u32_exact 0 ltac:(lia)) as [V0 F0]. split; [exact F0|]. rewrite V0. lra.
Qed.

(** C71 rests on the axioms of the standard library's real numbers (used by Flocq), and on no others. *)
Print Assumptions C71_proportional.
