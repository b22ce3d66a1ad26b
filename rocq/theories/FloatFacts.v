(** Lemmas about the [f32] operations used by [choose_index]. *)
From Coq Require Import Reals Lra Lia.
From Flocq Require Import Core Relative Plus_error IEEE754.BinarySingleNaN.
From Verif Require Import SpecChances.
Unset Implicit Arguments.
Open Scope R_scope.

Notation rnd := (round radix2 (FLT_exp (-149) 24) ZnearestE).
Notation form := (generic_format radix2 (FLT_exp (-149) 24)).
Notation add := f32_add.

Lemma rnd_le : forall x y, x <= y -> rnd x <= rnd y.
Proof. intros. apply round_le; auto with typeclass_instances. apply FLT_exp_valid. reflexivity. Qed.

Lemma rnd_form : forall x, form x -> rnd x = x.
Proof. intros. apply round_generic; auto with typeclass_instances. Qed.

Lemma form_value : forall c : f32, form (value c).
Proof. intros c. exact (generic_format_B2R 24 128 c). Qed.

Lemma rnd_value : forall c : f32, rnd (value c) = value c.
Proof. intros. apply rnd_form, form_value. Qed.

Lemma form_bpow : forall e, (-149 <= e)%Z -> form (bpow radix2 e).
Proof. intros. apply generic_format_FLT_bpow; auto. reflexivity. Qed.

Lemma value_zero : forall s, value (B754_zero s) = 0.
Proof. reflexivity. Qed.

Lemma overflow_not_finite : forall s (x : f32), B2SF x = binary_overflow 24 128 mode_NE s -> is_finite x = false.
Proof. intros s x H. destruct x; cbn in *; try reflexivity; discriminate. Qed.

Lemma add_correct : forall a b : f32, is_finite a = true -> is_finite b = true -> is_finite (add a b) = true ->
  value (add a b) = rnd (value a + value b).
Proof.
  intros a b Fa Fb Fab.
  pose proof (@Bplus_correct 24 128 f32_prec f32_emax mode_NE a b Fa Fb) as H.
  fold (f32_add a b) in H.
  destruct (Rlt_bool _ _).
  - destruct H as [H _]. exact H.
  - destruct H as [H _]. apply overflow_not_finite in H. congruence.
Qed.

Lemma add_not_finite_l : forall a b : f32, is_finite a = false -> is_finite (add a b) = false.
Proof. intros a b H. destruct a; try discriminate; destruct b; cbn; auto; destruct (Bool.eqb _ _); reflexivity. Qed.

Lemma add_not_finite_r : forall a b : f32, is_finite b = false -> is_finite (add a b) = false.
Proof. intros a b H. destruct b; try discriminate; destruct a; cbn; auto; destruct (Bool.eqb _ _); reflexivity. Qed.

Lemma add_finite_l : forall a b : f32, is_finite (add a b) = true -> is_finite a = true.
Proof. intros a b H. destruct (is_finite a) eqn:E; auto. rewrite add_not_finite_l in H; auto. Qed.

Lemma of_u32_exact : forall n, (0 <= n < 2 ^ 24)%Z -> value (f32_of_u32 n) = IZR n /\ is_finite (f32_of_u32 n) = true.
Proof.
  intros n Hn.
  pose proof (@binary_normalize_correct 24 128 f32_prec f32_emax mode_NE n 0 false) as H.
  cbv zeta in H. fold (f32_of_u32 n) in H.
  assert (E : F2R (Float radix2 n 0) = IZR n).
  { unfold F2R. cbn [Fnum Fexp]. rewrite Rmult_1_r. reflexivity. }
  assert (B24 : bpow radix2 24 = IZR (2 ^ 24)) by reflexivity.
  rewrite E in H.
  assert (G : rnd (IZR n) = IZR n).
  { apply rnd_form. rewrite <- E. apply generic_format_FLT.
    exists (Float radix2 n 0); cbn [Fnum Fexp]; auto; try lia.
    rewrite Z.abs_eq by lia. exact (proj2 Hn). }
  change (round radix2 (SpecFloat.fexp 24 128) (round_mode mode_NE) (IZR n)) with (rnd (IZR n)) in H.
  rewrite G in H.
  rewrite Rlt_bool_true in H.
  - destruct H as (H1 & H2 & _). split; assumption.
  - rewrite Rabs_pos_eq by (apply IZR_le; lia).
    apply Rlt_trans with (bpow radix2 24).
    + rewrite B24. apply IZR_lt. lia.
    + apply bpow_lt. lia.
Qed.

Lemma gt_correct : forall a b : f32, is_finite a = true -> is_finite b = true ->
  (f32_gt a b = true <-> value b < value a).
Proof.
  intros a b Fa Fb. unfold f32_gt. rewrite (Bcompare_correct 24 128 a b Fa Fb).
  unfold value. destruct (Rcompare_spec (B2R a) (B2R b)); split; intros; try discriminate; try reflexivity; lra.
Qed.

(** ** Left-to-right sums *)
Definition sum_from (s : f32) (l : list f32) : f32 := fold_left add l s.

Lemma sum_finite_start : forall l s, is_finite (sum_from s l) = true -> is_finite s = true.
Proof.
  induction l as [|c l IH]; intros s H; auto.
  apply IH in H. eapply add_finite_l; eauto.
Qed.

Lemma add_ge : forall a b, is_finite a = true -> chance b -> is_finite (add a b) = true -> value a <= value (add a b).
Proof.
  intros a b Fa [Fb Pb] Fab. rewrite (add_correct a b Fa Fb Fab).
  rewrite <- (rnd_value a) at 1. apply rnd_le. lra.
Qed.

Lemma sum_ge : forall l s, Forall chance l -> is_finite (sum_from s l) = true -> value s <= value (sum_from s l).
Proof.
  induction l as [|c l IH]; intros s HC HF.
  - cbn. lra.
  - inversion HC; subst. cbn [sum_from fold_left] in *. fold (sum_from (add s c) l) in *.
    pose proof (sum_finite_start _ _ HF) as F1.
    pose proof (add_finite_l _ _ F1) as F0.
    apply Rle_trans with (value (add s c)); [apply add_ge; auto|apply IH; auto].
Qed.

(** The sums depend on the value of the start only (0.0 or -0.0). *)
Lemma add_finite_value : forall a a' b : f32, is_finite a = true -> is_finite a' = true -> is_finite b = true ->
  value a = value a' -> is_finite (add a b) = is_finite (add a' b).
Proof.
  intros a a' b Fa Fa' Fb E.
  pose proof (@Bplus_correct 24 128 f32_prec f32_emax mode_NE a b Fa Fb) as H.
  pose proof (@Bplus_correct 24 128 f32_prec f32_emax mode_NE a' b Fa' Fb) as H'.
  fold (f32_add a b) in H. fold (f32_add a' b) in H'.
  unfold value in E. rewrite E in H.
  destruct (Rlt_bool _ _).
  - destruct H as (_ & H & _), H' as (_ & H' & _). congruence.
  - destruct H as [H _], H' as [H' _]. apply overflow_not_finite in H. apply overflow_not_finite in H'. congruence.
Qed.

Lemma sum_value : forall l s s', Forall chance l -> is_finite s = true -> is_finite s' = true -> value s = value s' ->
  is_finite (sum_from s l) = is_finite (sum_from s' l) /\
  (is_finite (sum_from s l) = true -> value (sum_from s l) = value (sum_from s' l)).
Proof.
  induction l as [|c l IH]; intros s s' HC F F' E.
  - cbn. rewrite F, F'. auto.
  - inversion HC as [|? ? C HC']; subst. destruct C as [Fc Pc].
    cbn [sum_from fold_left]. fold (sum_from (add s c) l). fold (sum_from (add s' c) l).
    pose proof (add_finite_value s s' c F F' Fc E) as FF.
    destruct (is_finite (add s c)) eqn:Fs.
    + apply IH; auto. rewrite !add_correct; auto. rewrite E. reflexivity.
    + assert (N : forall x, is_finite x = false -> is_finite (sum_from x l) = false).
      { intros x Hx. destruct (is_finite (sum_from x l)) eqn:G; auto. apply sum_finite_start in G. congruence. }
      rewrite (N _ Fs), (N _ (eq_sym FF)). split; auto. discriminate.
Qed.

(** ** The loop of [choose_index] *)
Lemma loop_spec : forall l t s i, Forall chance l -> is_finite t = true -> is_finite (sum_from s l) = true ->
  value s <= value t ->
  match choose_loop add f32_gt t s i l with
  | None => value (sum_from s l) <= value t
  | Some j => exists k, j = (i + k)%nat /\ (k < length l)%nat /\
                value (sum_from s (firstn k l)) <= value t < value (sum_from s (firstn (S k) l))
  end.
Proof.
  induction l as [|c l IH]; intros t s i HC Ft HF Hs.
  - cbn. exact Hs.
  - inversion HC; subst. cbn [choose_loop]. cbn [sum_from fold_left] in *.
    fold (sum_from (add s c) l) in *.
    pose proof (sum_finite_start _ _ HF) as F1.
    destruct (f32_gt (add s c) t) eqn:G.
    + exists 0%nat. apply gt_correct in G; auto. cbn. repeat split; auto; lia.
    + assert (G' : value (add s c) <= value t).
      { apply Rnot_lt_le. intros L. apply gt_correct in L; auto. congruence. }
      specialize (IH t (add s c) (S i) ltac:(assumption) Ft HF G').
      destruct (choose_loop _ _ _ _ _ _) as [j|]; auto.
      destruct IH as (k & -> & Hk & B). exists (S k). repeat split; try (cbn; lia); apply B.
Qed.

(** ** The threshold *)
Definition threshold (S : f32) (r : Z) : f32 := f32_mul (f32_div S (f32_of_u32 1000000)) (f32_of_u32 r).

Definition unit_ : R := bpow radix2 (-24).

Lemma unit_value : unit_ = / 16777216.
Proof. unfold unit_. reflexivity. Qed.

Lemma rnd_rel : forall x, bpow radix2 (-126) <= x ->
  x * (1 - unit_) <= rnd x <= x * (1 + unit_).
Proof.
  intros x Hx. pose proof (bpow_gt_0 radix2 (-126)).
  destruct (relative_error_N_FLT_ex radix2 (-149) 24 ltac:(reflexivity) (fun n => negb (Z.even n)) x) as (e & He & E).
  - rewrite Rabs_pos_eq by lra. exact Hx.
  - rewrite E.
    assert (U : Rabs e <= unit_) by (eapply Rle_trans; [exact He|]; rewrite unit_value; cbn; lra).
    apply Rabs_le_inv in U. destruct U.
    split; apply Rmult_le_compat_l; lra.
Qed.

Lemma value_lt_max : forall c : f32, value c < bpow radix2 128.
Proof.
  intros c. apply Rle_lt_trans with (Rabs (value c)); [apply Rle_abs|]. exact (abs_B2R_lt_emax 24 128 c).
Qed.

Lemma ten6_exact : value (f32_of_u32 1000000) = 1000000 /\ is_finite (f32_of_u32 1000000) = true.
Proof. apply of_u32_exact. lia. Qed.

Lemma small_total : bpow radix2 (-126) * 1000000 <= bpow radix2 (-106).
Proof.
  replace (-106)%Z with (-126 + 20)%Z by reflexivity. rewrite bpow_plus.
  apply Rmult_le_compat_l; [apply bpow_ge_0|]. cbn. lra.
Qed.

Lemma quotient_spec : forall S : f32, is_finite S = true -> bpow radix2 (-106) <= value S ->
  let q := f32_div S (f32_of_u32 1000000) in
  is_finite q = true /\ value q = rnd (value S / 1000000) /\ bpow radix2 (-126) <= value q /\
  value S / 1000000 * (1 - unit_) <= value q <= value S / 1000000 * (1 + unit_).
Proof.
  intros S FS HS q. destruct ten6_exact as [V6 F6]. pose proof small_total as B6.
  pose proof (bpow_gt_0 radix2 (-126)) as P126.
  assert (L : bpow radix2 (-126) <= value S / 1000000) by (apply Rmult_le_reg_r with 1000000; lra).
  assert (R1 : value S / 1000000 <= value S) by (apply Rmult_le_reg_r with 1000000; lra).
  assert (RS : rnd (value S / 1000000) <= value S).
  { rewrite <- (rnd_value S) at 2. apply rnd_le. lra. }
  assert (RL : bpow radix2 (-126) <= rnd (value S / 1000000)).
  { rewrite <- (rnd_form (bpow radix2 (-126))) by (apply form_bpow; lia). apply rnd_le. lra. }
  pose proof (@Bdiv_correct 24 128 f32_prec f32_emax mode_NE S (f32_of_u32 1000000)) as H.
  fold (f32_div S (f32_of_u32 1000000)) in H. fold q in H.
  change (B2R (f32_of_u32 1000000)) with (value (f32_of_u32 1000000)) in H. rewrite V6 in H.
  change (round radix2 (SpecFloat.fexp 24 128) (round_mode mode_NE)) with rnd in H.
  change (B2R S) with (value S) in H.
  specialize (H ltac:(lra)).
  rewrite Rlt_bool_true in H.
  2:{ rewrite Rabs_pos_eq by lra. apply Rle_lt_trans with (value S); [exact RS|apply value_lt_max]. }
  destruct H as (H1 & H2 & _). change (B2R q) with (value q) in H1.
  rewrite FS in H2. repeat split; auto; try (rewrite H1; auto); apply rnd_rel; auto.
Qed.

Lemma threshold_spec : forall S : f32, is_finite S = true -> bpow radix2 (-106) <= value S ->
  forall r, (0 <= r < 1000000)%Z ->
  is_finite (threshold S r) = true /\
  value (threshold S r) = rnd (value (f32_div S (f32_of_u32 1000000)) * IZR r) /\
  value S / 1000000 * IZR r * ((1 - unit_) * (1 - unit_)) <= value (threshold S r) /\
  value (threshold S r) <= value S / 1000000 * IZR r * ((1 + unit_) * (1 + unit_)).
Proof.
  intros S FS HS r Hr. destruct (quotient_spec S FS HS) as (Fq & Eq & Lq & Bq).
  set (q := f32_div S (f32_of_u32 1000000)) in *.
  destruct (of_u32_exact r ltac:(lia)) as [Vr Fr].
  pose proof (bpow_gt_0 radix2 (-126)) as P126. pose proof (bpow_gt_0 radix2 (-106)) as P106.
  assert (R0 : 0 <= IZR r) by (apply IZR_le; lia).
  assert (R1 : IZR r <= 999999) by (apply IZR_le; lia).
  assert (U : unit_ = / 16777216) by apply unit_value.
  assert (QS : value q * IZR r <= value S).
  { apply Rle_trans with (value S / 1000000 * (1 + unit_) * 999999).
    - apply Rmult_le_compat; lra.
    - replace (value S / 1000000 * (1 + unit_) * 999999) with (value S * ((1 + unit_) * (999999 / 1000000))) by field.
      rewrite <- (Rmult_1_r (value S)) at 2. apply Rmult_le_compat_l; lra. }
  assert (Q0 : 0 <= value q * IZR r) by (apply Rmult_le_pos; lra).
  assert (RS : rnd (value q * IZR r) <= value S).
  { rewrite <- (rnd_value S) at 1. apply rnd_le. exact QS. }
  assert (RP : 0 <= rnd (value q * IZR r)).
  { rewrite <- (rnd_form 0) by apply generic_format_0. apply rnd_le. exact Q0. }
  pose proof (@Bmult_correct 24 128 f32_prec f32_emax mode_NE q (f32_of_u32 r)) as H.
  fold (f32_mul q (f32_of_u32 r)) in H.
  change (B2R (f32_of_u32 r)) with (value (f32_of_u32 r)) in H. rewrite Vr in H.
  change (round radix2 (SpecFloat.fexp 24 128) (round_mode mode_NE)) with rnd in H.
  change (B2R q) with (value q) in H.
  rewrite Rlt_bool_true in H.
  2:{ rewrite Rabs_pos_eq by lra. apply Rle_lt_trans with (value S); [exact RS|apply value_lt_max]. }
  destruct H as (H1 & H2 & _). rewrite Fq, Fr in H2.
  change (f32_mul q (f32_of_u32 r)) with (threshold S r) in *.
  change (B2R (threshold S r)) with (value (threshold S r)) in H1.
  rewrite H1. split; [exact H2|]. split; [reflexivity|].
  assert (r = 0%Z \/ 1 <= IZR r) as [->|G].
  { destruct (Z.eq_dec r 0); auto. right. apply IZR_le. lia. }
  - rewrite !Rmult_0_r, Rmult_0_l. rewrite rnd_form by apply generic_format_0. lra.
  - assert (L : bpow radix2 (-126) <= value q * IZR r).
    { apply Rle_trans with (value q * 1); [lra|]. apply Rmult_le_compat_l; lra. }
    destruct (rnd_rel _ L) as [A B].
    set (s := value S / 1000000) in *.
    split.
    + eapply Rle_trans; [|exact A].
      replace (s * IZR r * ((1 - unit_) * (1 - unit_))) with (s * (1 - unit_) * IZR r * (1 - unit_)) by ring.
      apply Rmult_le_compat_r; [lra|]. apply Rmult_le_compat_r; lra.
    + eapply Rle_trans; [exact B|].
      replace (s * IZR r * ((1 + unit_) * (1 + unit_))) with (s * (1 + unit_) * IZR r * (1 + unit_)) by ring.
      apply Rmult_le_compat_r; [lra|]. apply Rmult_le_compat_r; lra.
Qed.

Lemma threshold_mono : forall S : f32, is_finite S = true -> bpow radix2 (-106) <= value S ->
  forall r r', (0 <= r <= r')%Z -> (r' < 1000000)%Z -> value (threshold S r) <= value (threshold S r').
Proof.
  intros S FS HS r r' H H'. destruct (quotient_spec S FS HS) as (_ & _ & Lq & _).
  pose proof (bpow_gt_0 radix2 (-126)).
  destruct (threshold_spec S FS HS r ltac:(lia)) as (_ & -> & _).
  destruct (threshold_spec S FS HS r' ltac:(lia)) as (_ & -> & _).
  apply rnd_le. apply Rmult_le_compat_l; [lra|]. apply IZR_le. lia.
Qed.

Lemma threshold_lt : forall S : f32, is_finite S = true -> bpow radix2 (-106) <= value S ->
  forall r, (0 <= r < 1000000)%Z -> 0 <= value (threshold S r) < value S.
Proof.
  intros S FS HS r Hr. destruct (threshold_spec S FS HS r Hr) as (_ & _ & A & B).
  pose proof unit_value as U. pose proof (bpow_gt_0 radix2 (-106)).
  assert (R0 : 0 <= IZR r) by (apply IZR_le; lia).
  assert (R1 : IZR r <= 999999) by (apply IZR_le; lia).
  split.
  - eapply Rle_trans; [|exact A]. apply Rmult_le_pos; [apply Rmult_le_pos; lra|]. rewrite U. lra.
  - eapply Rle_lt_trans; [exact B|].
    apply Rle_lt_trans with (value S / 1000000 * 999999 * ((1 + unit_) * (1 + unit_))).
    + apply Rmult_le_compat_r; [rewrite U; lra|]. apply Rmult_le_compat_l; lra.
    + replace (value S / 1000000 * 999999 * ((1 + unit_) * (1 + unit_)))
        with (value S * ((999999 / 1000000) * ((1 + unit_) * (1 + unit_)))) by field.
      rewrite <- (Rmult_1_r (value S)) at 2. apply Rmult_lt_compat_l; [lra|]. rewrite U. lra.
Qed.
