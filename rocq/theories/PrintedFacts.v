(** Lemmas about [f64] arithmetic and its printing. *)
From Coq Require Import Strings.String Reals Lra Lia.
From Flocq Require Import Core Relative IEEE754.BinarySingleNaN.
From Verif Require Import SpecPrinted StrFacts WrittenFacts.
Unset Implicit Arguments.
Open Scope R_scope.

Notation rnd := (round radix2 (FLT_exp (-1074) 53) ZnearestE).
Definition c : R := 1 + / 2 ^ 52.

Lemma p52 : (2 ^ 52)%R = 4503599627370496.
Proof. rewrite pow_IZR. reflexivity. Qed.
Lemma p53 : (2 ^ 53)%R = 9007199254740992.
Proof. rewrite pow_IZR. reflexivity. Qed.
Lemma b52 : bpow radix2 (-52) = / 4503599627370496.
Proof. reflexivity. Qed.
Lemma c_eq : c = 1 + / 4503599627370496.
Proof. unfold c. rewrite p52. reflexivity. Qed.

Lemma c_ge : 1 <= c.
Proof. rewrite c_eq. lra. Qed.
Lemma ck_ge k : 1 <= c ^ k.
Proof. apply pow_R1_Rle, c_ge. Qed.
Lemma ck_pos k : 0 < c ^ k.
Proof. pose proof (ck_ge k). lra. Qed.
Lemma ck_le j k : (j <= k)%nat -> c ^ j <= c ^ k.
Proof. intros. apply Rle_pow; auto using c_ge. Qed.

(** [f] approximates [x] up to [k] roundings. *)
Definition apx (k : nat) (f : f64) (x : R) : Prop :=
  is_finite f = true /\ Bsign f = false /\ 0 <= x /\ x / c ^ k <= B2R f <= x * c ^ k.

(** Numbers well inside the range of [f64], or zero. *)
Definition inside (x : R) : Prop := x = 0 \/ (bpow radix2 (-400) <= x <= bpow radix2 400).

Lemma rnd_bound x : 0 <= x -> x = 0 \/ bpow radix2 (-1000) <= x -> x / c <= rnd x <= x * c.
Proof.
  intros P [-> | H].
  - rewrite round_0 by auto with typeclass_instances. unfold Rdiv. lra.
  - destruct (relative_error_N_FLT_ex radix2 (-1074) 53 eq_refl (fun z => negb (Z.even z)) x) as (eps & He & E).
    + rewrite Rabs_pos_eq by auto. eapply Rle_trans; [|exact H]. apply bpow_le. lia.
    + rewrite E. replace (/ 2 * bpow radix2 (- (53) + 1)) with (/ 9007199254740992) in He.
      2: { change (-(53) + 1)%Z with (-52)%Z. rewrite b52. lra. }
      apply Rabs_le_inv in He.
      assert (0 < x) by (pose proof (bpow_gt_0 radix2 (-1000)); lra).
      split.
      * apply Rmult_le_compat_l with (r := x); [lra|].
        apply Rmult_le_reg_r with c; [rewrite c_eq; lra|]. rewrite Rinv_l by (rewrite c_eq; lra).
        apply Rle_trans with ((1 - / 9007199254740992) * c); [rewrite c_eq; lra|].
        apply Rmult_le_compat_r; [rewrite c_eq; lra|lra].
      * apply Rmult_le_compat_l; [lra|]. rewrite c_eq. lra.
Qed.

Lemma c_pow n : (n <= 200)%nat -> c ^ n <= 1 + IZR (Z.of_nat n) * / 2251799813685248.
Proof.
  induction n as [|n IH]; intros L.
  - change (Z.of_nat 0) with 0%Z. cbn [pow]. lra.
  - change (c ^ S n) with (c * c ^ n). rewrite Nat2Z.inj_succ, succ_IZR. specialize (IH ltac:(lia)).
    assert (I : IZR (Z.of_nat n) <= 200) by (apply IZR_le; lia).
    assert (0 <= IZR (Z.of_nat n)) by (apply IZR_le; lia). pose proof c_ge. eapply Rle_trans; [apply Rmult_le_compat_l; [lra|exact IH]|]. rewrite c_eq.
    set (y := IZR (Z.of_nat n)) in *.
    apply Rle_trans with (1 + y * / 2251799813685248 + / 4503599627370496 * (1 + 200 * / 2251799813685248)); [|lra].
    rewrite Rmult_plus_distr_r, Rmult_1_l. apply Rplus_le_compat_l, Rmult_le_compat_l; [lra|]. apply Rplus_le_compat_l, Rmult_le_compat_r; lra.
Qed.
Lemma c200 : c ^ 200 <= 2.
Proof. eapply Rle_trans; [apply c_pow; lia|]. change (Z.of_nat 200) with 200%Z. lra. Qed.
Lemma ck_2 k : (k <= 200)%nat -> c ^ k <= 2.
Proof. intros. eapply Rle_trans; [apply ck_le, H|apply c200]. Qed.

(** Rounding something close to [x]. *)
Lemma rnd_apx k x y : (k < 200)%nat -> inside x -> 0 <= x -> x / c ^ k <= y <= x * c ^ k ->
  x / c ^ S k <= rnd y <= x * c ^ S k /\ Rabs (rnd y) < bpow radix2 1024 /\ 0 <= y.
Proof.
  intros K I P [L U].
  pose proof (ck_pos k) as Cp. pose proof (ck_2 k ltac:(lia)) as C2. pose proof (ck_2 (S k) ltac:(lia)) as C2'.
  pose proof (ck_pos (S k)) as Cp'.
  assert (Hy : 0 <= y). { eapply Rle_trans; [|exact L]. apply Rmult_le_pos; auto. apply Rlt_le, Rinv_0_lt_compat, Cp. }
  assert (Iy : y = 0 \/ bpow radix2 (-1000) <= y).
  { destruct I as [-> | [I1 I2]].
    - left. unfold Rdiv in L. lra.
    - right. eapply Rle_trans; [|exact L]. apply Rle_trans with (x / 2).
      + apply Rle_trans with (bpow radix2 (-400) / 2); [|lra]. change (bpow radix2 (-400) / 2) with (bpow radix2 (-400) * bpow radix2 (-1)).
        rewrite <- bpow_plus. apply bpow_le. lia.
      + apply Rmult_le_compat_l; auto. apply Rinv_le_contravar; auto. }
  pose proof (rnd_bound y Hy Iy) as [RL RU]. pose proof c_ge as C1.
  assert (B : x / c ^ S k <= rnd y <= x * c ^ S k).
  { split.
    - eapply Rle_trans; [|exact RL]. change (c ^ S k) with (c * c ^ k). unfold Rdiv. rewrite Rinv_mult.
      replace (x * (/ c * / c ^ k)) with (x / c ^ k * / c) by (unfold Rdiv; ring).
      apply Rmult_le_compat_r; auto. apply Rlt_le, Rinv_0_lt_compat. lra.
    - eapply Rle_trans; [exact RU|]. change (c ^ S k) with (c * c ^ k).
      replace (x * (c * c ^ k)) with (x * c ^ k * c) by ring. apply Rmult_le_compat_r; lra. }
  split; [exact B|]. split; [|exact Hy].
  assert (0 <= rnd y). { eapply Rle_trans; [|apply B]. apply Rmult_le_pos; auto. apply Rlt_le, Rinv_0_lt_compat, Cp'. }
  rewrite Rabs_pos_eq by auto. apply Rle_lt_trans with (bpow radix2 400 * 2).
  - eapply Rle_trans; [apply B|]. assert (x <= bpow radix2 400) by (destruct I as [-> | I]; [apply bpow_ge_0|lra]).
    apply Rle_trans with (x * 2); [apply Rmult_le_compat_l; lra|lra].
  - change 2 with (bpow radix2 1). rewrite <- bpow_plus. apply bpow_lt. lia.
Qed.

Lemma apx_weaken j k f x : (j <= k)%nat -> apx j f x -> apx k f x.
Proof.
  intros L (F & S & P & A & B). repeat split; auto.
  - eapply Rle_trans; [|exact A]. apply Rmult_le_compat_l; auto. apply Rinv_le_contravar; auto using ck_pos, ck_le.
  - eapply Rle_trans; [exact B|]. apply Rmult_le_compat_l; auto using ck_le.
Qed.

Lemma inside_Z n : (0 <= n < 2 ^ 200)%Z -> inside (IZR n).
Proof.
  intros H. destruct (Z.eq_dec n 0) as [-> | N]; [left; reflexivity|right]. split.
  - apply Rle_trans with 1; [|apply IZR_le; lia]. change 1 with (bpow radix2 0). apply bpow_le. lia.
  - apply Rle_trans with (IZR (2 ^ 200)); [apply IZR_le; lia|]. change (IZR (2 ^ 200)) with (bpow radix2 200). apply bpow_le. lia.
Qed.

Lemma apx_of n : (0 <= n < 2 ^ 200)%Z -> apx 1 (f64_of n) (IZR n).
Proof.
  intros H. pose proof (@binary_normalize_correct 53 1024 f64_prec f64_emax mode_NE n 0 false) as C.
  cbv zeta in C. fold (f64_of n) in C.
  assert (E : F2R (Float radix2 n 0) = IZR n) by (unfold F2R; cbn [Fnum Fexp]; apply Rmult_1_r).
  rewrite E in C. assert (P : 0 <= IZR n) by (apply IZR_le; lia).
  destruct (rnd_apx 0 (IZR n) (IZR n) ltac:(lia) (inside_Z n H) P) as (B & L & _); [cbn; lra|].
  rewrite Rlt_bool_true in C by exact L. destruct C as (C1 & C2 & C3).
  split; [exact C2|]. split; [|split; [exact P|rewrite C1; exact B]].
  rewrite C3. destruct (Rcompare_spec (IZR n) 0); auto. lra.
Qed.
Lemma p9 : (10 ^ 9)%R = 1000000000.
Proof. rewrite pow_IZR. reflexivity. Qed.
Lemma nano_value : B2R f64_nano = 4835703278458517 * / 4835703278458516698824704.
Proof.
  rewrite <- SF2R_B2SF. assert (E : B2SF f64_nano = SpecFloat.S754_finite false 4835703278458517 (-82)) by (vm_compute; reflexivity).
  rewrite E. unfold SF2R, F2R. cbn [Fnum Fexp cond_Zopp]. reflexivity.
Qed.
Lemma apx_nano : apx 1 f64_nano (/ 10 ^ 9).
Proof.
  split; [vm_compute; reflexivity|]. split; [vm_compute; reflexivity|].
  rewrite nano_value, p9, pow_1, c_eq. unfold Rdiv. lra.
Qed.
Lemma finite_nan (f : f64) : is_finite f = true -> is_nan f = false.
Proof. destruct f; auto; discriminate. Qed.

Lemma apx_mul j k f g x y : apx j f x -> apx k g y -> inside (x * y) -> (j + k < 200)%nat -> apx (S (j + k)) (f64_mul f g) (x * y).
Proof.
  intros (Ff & Sf & Px & Lx & Ux) (Fg & Sg & Py & Ly & Uy) I K.
  pose proof (@Bmult_correct 53 1024 f64_prec f64_emax mode_NE f g) as C. fold (f64_mul f g) in C.
  pose proof (ck_pos j). pose proof (ck_pos k).
  assert (Qf : 0 <= x / c ^ j) by (apply Rmult_le_pos; auto; apply Rlt_le, Rinv_0_lt_compat; auto).
  assert (Qg : 0 <= y / c ^ k) by (apply Rmult_le_pos; auto; apply Rlt_le, Rinv_0_lt_compat; auto).
  destruct (rnd_apx (j + k) (x * y) (B2R f * B2R g) K I ltac:(apply Rmult_le_pos; auto)) as (B & L & _).
  { rewrite pow_add. split.
    - unfold Rdiv. rewrite Rinv_mult. replace (x * y * (/ c ^ j * / c ^ k)) with (x / c ^ j * (y / c ^ k)) by (unfold Rdiv; ring).
      apply Rmult_le_compat; auto.
    - replace (x * y * (c ^ j * c ^ k)) with (x * c ^ j * (y * c ^ k)) by ring. apply Rmult_le_compat; auto; lra. }
  rewrite Rlt_bool_true in C by exact L. destruct C as (C1 & C2 & C3).
  assert (Ff' : is_finite (f64_mul f g) = true) by (rewrite C2, Ff, Fg; reflexivity).
  split; [exact Ff'|]. split; [|split; [apply Rmult_le_pos; auto|rewrite C1; exact B]].
  rewrite C3 by (apply finite_nan; exact Ff'). rewrite Sf, Sg. reflexivity.
Qed.
Lemma apx_div j k f g x y : apx j f x -> apx k g y -> 0 < y -> inside (x / y) -> (j + k < 200)%nat -> apx (S (j + k)) (f64_div f g) (x / y).
Proof.
  intros (Ff & Sf & Px & Lx & Ux) (Fg & Sg & Py & Ly & Uy) Y I K.
  pose proof (ck_pos j). pose proof (ck_pos k).
  assert (Qf : 0 <= x / c ^ j) by (apply Rmult_le_pos; auto; apply Rlt_le, Rinv_0_lt_compat; auto).
  assert (Qg : 0 < y / c ^ k) by (apply Rmult_lt_0_compat; auto; apply Rinv_0_lt_compat; auto).
  assert (G : 0 < B2R g) by lra.
  pose proof (@Bdiv_correct 53 1024 f64_prec f64_emax mode_NE f g ltac:(lra)) as C. fold (f64_div f g) in C.
  assert (Pxy : 0 <= x / y) by (apply Rmult_le_pos; auto; apply Rlt_le, Rinv_0_lt_compat; auto).
  destruct (rnd_apx (j + k) (x / y) (B2R f / B2R g) K I Pxy) as (B & L & _).
  { rewrite pow_add. unfold Rdiv in *. split.
    - rewrite Rinv_mult. replace (x * / y * (/ c ^ j * / c ^ k)) with (x * / c ^ j * / (y * c ^ k)) by (rewrite Rinv_mult; ring).
      apply Rmult_le_compat; auto.
      + apply Rlt_le, Rinv_0_lt_compat, Rmult_lt_0_compat; auto.
      + apply Rinv_le_contravar; auto.
    - replace (x * / y * (c ^ j * c ^ k)) with (x * c ^ j * / (y * / c ^ k)).
      2: { rewrite Rinv_mult, Rinv_inv. ring. }
      apply Rmult_le_compat; auto; try lra.
      + apply Rlt_le, Rinv_0_lt_compat; auto.
      + apply Rinv_le_contravar; auto. }
  rewrite Rlt_bool_true in C by exact L. destruct C as (C1 & C2 & C3).
  assert (Ff' : is_finite (f64_div f g) = true) by (rewrite C2, Ff; reflexivity).
  split; [exact Ff'|]. split; [|split; [exact Pxy|rewrite C1; exact B]].
  rewrite C3 by (apply finite_nan; exact Ff'). rewrite Sf, Sg. reflexivity.
Qed.
Lemma apx_add k f g x y : apx k f x -> apx k g y -> inside (x + y) -> (k < 200)%nat -> apx (S k) (f64_add f g) (x + y).
Proof.
  intros (Ff & Sf & Px & Lx & Ux) (Fg & Sg & Py & Ly & Uy) I K.
  pose proof (@Bplus_correct 53 1024 f64_prec f64_emax mode_NE f g Ff Fg) as C. fold (f64_add f g) in C.
  destruct (rnd_apx k (x + y) (B2R f + B2R g) K I ltac:(lra)) as (B & L & Q).
  { split; [unfold Rdiv in *; rewrite Rmult_plus_distr_r; lra|rewrite Rmult_plus_distr_r; lra]. }
  rewrite Rlt_bool_true in C by exact L. destruct C as (C1 & C2 & C3).
  split; [exact C2|]. split; [|split; [lra|rewrite C1; exact B]].
  rewrite C3, Sf, Sg. destruct (Rcompare_spec (B2R f + B2R g) 0); auto. lra.
Qed.
Lemma apx_max k f g x y : apx k f x -> apx k g y -> apx k (f64_max f g) (Rmax x y).
Proof.
  intros A B. assert (F : B2R (f64_max f g) = Rmax (B2R f) (B2R g) /\ (f64_max f g = f \/ f64_max f g = g)).
  { unfold f64_max. rewrite (Bcompare_correct 53 1024 f g) by (apply A || apply B).
    destruct (Rcompare_spec (B2R f) (B2R g)); split; auto; [rewrite Rmax_right|rewrite Rmax_left|rewrite Rmax_left]; lra. }
  destruct F as [F G]. destruct A as (Ff & Sf & Px & Lx & Ux), B as (Fg & Sg & Py & Ly & Uy).
  pose proof (ck_pos k) as C. pose proof (Rinv_0_lt_compat _ C) as C'.
  split; [destruct G as [-> | ->]; auto|]. split; [destruct G as [-> | ->]; auto|].
  split; [eapply Rle_trans; [exact Px|apply Rmax_l]|]. rewrite F. unfold Rdiv in *.
  destruct (Rle_dec x y).
  - rewrite (Rmax_right x y) by auto. split; [eapply Rle_trans; [exact Ly|apply Rmax_r]|].
    apply Rmax_lub; auto. eapply Rle_trans; [exact Ux|]. apply Rmult_le_compat_r; lra.
  - rewrite (Rmax_left x y) by lra. split; [eapply Rle_trans; [exact Lx|apply Rmax_l]|].
    apply Rmax_lub; auto. eapply Rle_trans; [exact Uy|]. apply Rmult_le_compat_r; lra.
Qed.

(** ** Times and rates *)
Lemma small_400 : bpow radix2 (-400) <= / IZR (2 ^ 200).
Proof. apply Rle_trans with (bpow radix2 (-200)); [apply bpow_le; lia|]. apply Req_le. reflexivity. Qed.
Lemma big_400 : IZR (2 ^ 300) <= bpow radix2 400.
Proof. apply Rle_trans with (bpow radix2 300); [apply Req_le; reflexivity|apply bpow_le; lia]. Qed.
Lemma inside_between x : x = 0 \/ / IZR (2 ^ 200) <= x -> x <= IZR (2 ^ 300) -> inside x.
Proof. pose proof small_400. pose proof big_400. intros [-> | L] U; [left; reflexivity|right]. lra. Qed.
Lemma inside_ratio a x : (0 <= a < 2 ^ 199)%Z -> / 1000000000 <= x <= 36893488147419103232 -> inside (IZR a / x).
Proof.
  intros A [L U]. assert (X : 0 < x) by lra.
  assert (P : IZR (2 ^ 300) = IZR (2 ^ 199) * IZR (2 ^ 101)) by (rewrite <- mult_IZR; reflexivity).
  apply inside_between.
  - destruct (Z.eq_dec a 0) as [-> | N]; [left; unfold Rdiv; lra|right].
    apply Rle_trans with (/ x).
    + apply Rinv_le_contravar; auto. eapply Rle_trans; [exact U|]. apply IZR_le. lia.
    + unfold Rdiv. rewrite <- (Rmult_1_l (/ x)) at 1. apply Rmult_le_compat_r; [apply Rlt_le, Rinv_0_lt_compat; auto|apply IZR_le; lia].
  - rewrite P. unfold Rdiv. apply Rmult_le_compat; [apply IZR_le; lia|apply Rlt_le, Rinv_0_lt_compat; auto|apply IZR_le; lia|].
    apply Rle_trans with (/ / 1000000000); [apply Rinv_le_contravar; [lra|auto]|]. rewrite Rinv_inv. apply IZR_le. lia.
Qed.

Lemma seconds_range d : time_span d -> 0 <= seconds d <= 36893488147419103232 /\ (seconds d = 0 \/ / 1000000000 <= seconds d).
Proof.
  intros [S N]. unfold seconds. rewrite p9.
  assert (0 <= IZR (d_secs d)) by (apply IZR_le; lia). assert (0 <= IZR (d_nanos d)) by (apply IZR_le; lia).
  assert (IZR (d_secs d) <= 18446744073709551616) by (apply IZR_le; lia). assert (IZR (d_nanos d) <= 1000000000) by (apply IZR_le; lia).
  unfold Rdiv. split; [lra|].
  destruct (Z.eq_dec (d_secs d) 0) as [E1 | E1], (Z.eq_dec (d_nanos d) 0) as [E2 | E2].
  - left. rewrite E1, E2. lra.
  - right. assert (1 <= IZR (d_nanos d)) by (apply IZR_le; lia). lra.
  - right. assert (1 <= IZR (d_secs d)) by (apply IZR_le; lia). lra.
  - right. assert (1 <= IZR (d_secs d)) by (apply IZR_le; lia). lra.
Qed.
Lemma counted_range d : time_span d -> / 1000000000 <= seconds_counted d <= 36893488147419103232.
Proof.
  intros T. destruct (seconds_range d T) as [[A B] _]. unfold seconds_counted. rewrite p9. split; [apply Rmax_r|apply Rmax_lub; lra].
Qed.

Lemma apx_secs d : time_span d -> apx 4 (as_secs_f64 d) (seconds d).
Proof.
  intros T. pose proof (seconds_range d T) as [[A B] C]. destruct T as [S N]. unfold as_secs_f64, seconds. rewrite p9.
  apply apx_add; [| | |lia].
  - apply apx_weaken with 1%nat; [lia|]. apply apx_of. lia.
  - apply (apx_div 1 1).
    + apply apx_of. lia.
    + apply (apx_of 1000000000). lia.
    + lra.
    + apply inside_ratio; [lia|lra].
    + lia.
  - unfold seconds in *. rewrite p9 in *. apply inside_between.
    + destruct C as [C | C]; [left; exact C|right]. eapply Rle_trans; [|exact C]. apply Rinv_le_contravar; [lra|apply IZR_le; lia].
    + eapply Rle_trans; [exact B|apply IZR_le; lia].
Qed.
Lemma apx_counted d : time_span d -> apx 4 (f64_max (as_secs_f64 d) f64_nano) (seconds_counted d).
Proof. intros T. apply apx_max; [apply apx_secs, T|]. apply apx_weaken with 1%nat; [lia|apply apx_nano]. Qed.
Lemma apx_rate n d : (0 <= n < 2 ^ 64)%Z -> time_span d ->
  apx 6 (f64_div (f64_of n) (f64_max (as_secs_f64 d) f64_nano)) (IZR n / seconds_counted d).
Proof.
  intros H T. pose proof (counted_range d T). apply (apx_div 1 4); [apply apx_of; lia|apply apx_counted, T|lra| |lia].
  apply inside_ratio; [lia|auto].
Qed.
Lemma apx_product_rate a n d : (0 <= a < 2 ^ 128)%Z -> (0 <= n < 2 ^ 64)%Z -> time_span d ->
  apx 8 (f64_div (f64_mul (f64_of a) (f64_of n)) (f64_max (as_secs_f64 d) f64_nano)) (IZR a * IZR n / seconds_counted d).
Proof.
  intros A H T. pose proof (counted_range d T). assert (0 <= a * n < 2 ^ 199)%Z by nia.
  apply (apx_div 3 4).
  - apply (apx_mul 1 1); [apply apx_of; lia|apply apx_of; lia| |lia]. rewrite <- mult_IZR. apply inside_Z. lia.
  - apply apx_counted, T.
  - lra.
  - rewrite <- mult_IZR. apply inside_ratio; auto.
  - lia.
Qed.
Lemma apx_average t n : (0 <= t < 2 ^ 64)%Z -> (1 <= n < 2 ^ 64)%Z -> apx 3 (f64_div (f64_of t) (f64_of n)) (IZR t / IZR n).
Proof.
  intros T N. assert (1 <= IZR n) by (apply IZR_le; lia).
  apply (apx_div 1 1); [apply apx_of; lia|apply apx_of; lia|lra| |lia]. apply inside_ratio; [lia|].
  split; [lra|apply IZR_le; lia].
Qed.

(** ** Printing *)
Lemma round_pow2_spec n e : (0 <= n)%Z -> (0 <= round_pow2 n e)%Z /\ Rabs (IZR (round_pow2 n e) - IZR n * bpow radix2 e) <= / 2.
Proof.
  intros N. unfold round_pow2. destruct (Z.leb_spec 0 e) as [E | E].
  - split; [apply Z.mul_nonneg_nonneg; auto; apply Z.pow_nonneg; lia|].
    rewrite mult_IZR, <- (IZR_Zpower radix2 e E). change (Zpower radix2 e) with (2 ^ e)%Z. rewrite Rminus_diag_eq by reflexivity. rewrite Rabs_R0. lra.
  - assert (P : (0 < 2 ^ (- e))%Z) by (apply Z.pow_pos_nonneg; lia).
    assert (B : bpow radix2 e = / IZR (2 ^ (- e))).
    { replace e with (- - e)%Z at 1 by lia. rewrite bpow_opp. f_equal. symmetry. exact (IZR_Zpower radix2 (- e) ltac:(lia)). }
    rewrite B. set (d := (2 ^ (- e))%Z) in *.
    pose proof (Z.div_mod n d ltac:(lia)) as D. pose proof (Z.mod_pos_bound n d P) as M. pose proof (Z.div_pos n d N P) as Q.
    assert (PD : 0 < IZR d) by (apply IZR_lt; lia).
    assert (K : forall z, (2 * Z.abs (d * z - n) <= d)%Z -> Rabs (IZR z - IZR n * / IZR d) <= / 2).
    { intros z H. replace (IZR z - IZR n * / IZR d) with (IZR (d * z - n) * / IZR d).
      2: { rewrite minus_IZR, mult_IZR. field. lra. }
      rewrite Rabs_mult, <- abs_IZR, (Rabs_pos_eq (/ IZR d)) by (apply Rlt_le, Rinv_0_lt_compat; auto).
      apply Rmult_le_reg_r with (IZR d); auto. rewrite Rmult_assoc, Rinv_l by lra.
      apply IZR_le in H. rewrite mult_IZR in H. lra. }
    cbv zeta. destruct (Z.ltb_spec (2 * (n mod d)) d); [split; [lia|apply K; lia]|].
    destruct (Z.ltb_spec d (2 * (n mod d))); [split; [lia|apply K; lia]|].
    destruct (Z.even (n / d)); (split; [lia|apply K; lia]).
Qed.

Lemma p48 : (2 ^ 48)%R = 281474976710656.
Proof. rewrite pow_IZR. reflexivity. Qed.
Lemma apx_close k f x : (k <= 8)%nat -> apx k f x -> Rabs (B2R f - x) <= x * / 2 ^ 48.
Proof.
  intros K (_ & _ & P & L & U). rewrite p48.
  assert (C : c ^ k <= 1 + / 281474976710656).
  { eapply Rle_trans; [apply ck_le, K|]. eapply Rle_trans; [apply c_pow; lia|]. change (Z.of_nat 8) with 8%Z. lra. }
  pose proof (ck_ge k) as G.
  assert (D : 1 - / 281474976710656 <= / c ^ k).
  { apply Rle_trans with (/ (1 + / 281474976710656)); [|apply Rinv_le_contravar; lra].
    apply Rmult_le_reg_r with (1 + / 281474976710656); [lra|]. rewrite Rinv_l by lra. lra. }
  apply Rabs_le. unfold Rdiv in L. split.
  - apply Rle_trans with (x * / c ^ k - x); [|lra]. apply (Rmult_le_compat_l x) in D; auto. lra.
  - apply Rle_trans with (x * c ^ k - x); [lra|]. apply (Rmult_le_compat_l x) in C; auto. lra.
Qed.

Open Scope Z_scope.
Lemma last_digits_spec k : forall n, 0 <= n -> exists ds, List.length ds = k /\ Forall (fun d => 0 <= d <= 9) ds /\
  last_digits k n = map (Z.add 48) ds /\ n mod 10 ^ Z.of_nat k = value ds.
Proof.
  induction k as [|k IH]; intros n N.
  - exists []. repeat split; auto. cbn. apply Z.mod_1_r.
  - destruct (IH (n / 10) ltac:(apply Z.div_pos; lia)) as (ds & L & F & E & V).
    exists (ds ++ [n mod 10]). split; [rewrite app_length; cbn; lia|].
    pose proof (Z.mod_pos_bound n 10 ltac:(lia)).
    split; [apply Forall_app; split; auto; constructor; auto; lia|].
    split; [cbn [last_digits]; rewrite E, map_app; reflexivity|].
    rewrite value_snoc, <- V, Nat2Z.inj_succ, Z.pow_succ_r by lia.
    rewrite Z.rem_mul_r by (try apply Z.pow_pos_nonneg; lia). lia.
Qed.
Lemma fmt_fixed_spec k n : (0 < k)%nat -> 0 <= n -> fixed k (fmt_fixed k n) n.
Proof.
  intros K N. destruct (last_digits_spec k n N) as (ds & L & F & E & V).
  exists (fmt_uint (n / 10 ^ Z.of_nat k)), (last_digits k n). split; [reflexivity|].
  split; [rewrite E, map_length; exact L|]. split.
  - apply decimal_iff; [|reflexivity]. apply Z.div_pos; auto. apply Z.pow_pos_nonneg; lia.
  - exists ds. split; [destruct ds; [cbn in L; lia|discriminate]|]. split; auto.
Qed.
Lemma fixed_iff k s n : 0 <= n -> fixed k s n -> s = fmt_fixed k n.
Proof.
  intros N (i & f & -> & L & D & ds & H1 & H2 & H3 & H4). unfold fmt_fixed. f_equal; [|f_equal].
  - apply decimal_iff; auto. apply Z.div_pos; auto. apply Z.pow_pos_nonneg; lia.
  - destruct (last_digits_spec k n N) as (es & L' & F & E & V). rewrite E. subst f. f_equal. rewrite map_length in L.
    change (fold_left (fun a d => 10 * a + d) ds 0) with (value ds) in H4. rewrite V in H4.
    clear - L L' F H2 H4. revert es k L L' F H4. induction ds as [|d ds IH] using rev_ind; intros es k L L' F H4.
    + cbn in L. subst k. destruct es; [reflexivity|discriminate].
    + destruct es as [|e es] using rev_ind; [rewrite app_length in L; cbn in *; lia|]. rewrite !value_snoc in H4. rewrite app_length in L, L'. cbn in L, L'.
      apply Forall_app in F as [F1 F2]. apply Forall_app in H2 as [G1 G2]. apply Forall_inv in F2. apply Forall_inv in G2.
      assert (e = d) by lia. assert (value es = value ds) by lia. subst e. f_equal. apply (IH G1 es (List.length ds)); auto; lia.
Qed.

Lemma fmt_f64_rounded k j f x : (0 < k)%nat -> (j <= 8)%nat -> apx j f x -> rounded k (fmt_f64 k f) x.
Proof.
  intros K J A. pose proof (apx_close j f x J A) as C. destruct A as (F & S & P & _).
  assert (X : exists n, 0 <= n /\ fmt_f64 k f = fmt_fixed k n /\ (Rabs (IZR n - B2R f * 10 ^ k) <= / 2)%R).
  { destruct f as [s|s| |s mant e Hb]; try discriminate; cbn in S; subst s.
    - exists 0. split; [lia|]. split; [reflexivity|]. cbn [B2R]. rewrite Rmult_0_l, Rminus_0_r, Rabs_R0. lra.
    - cbn [fmt_f64 app]. destruct (round_pow2_spec (Zpos mant * 10 ^ Z.of_nat k) e) as [N R].
      { apply Z.mul_nonneg_nonneg; [lia|apply Z.pow_nonneg; lia]. }
      eexists. split; [exact N|]. split; [reflexivity|]. rewrite mult_IZR, <- pow_IZR in R.
      unfold B2R, F2R. cbn [Fnum Fexp cond_Zopp].
      replace (IZR (Zpos mant) * bpow radix2 e * 10 ^ k)%R with (IZR (Zpos mant) * 10 ^ k * bpow radix2 e)%R by ring. exact R. }
  destruct X as (n & N & E & R). exists n. split; [exact N|]. split; [rewrite E; apply fmt_fixed_spec; auto|].
  assert (T : (0 < 10 ^ k)%R) by (apply pow_lt; lra).
  replace (IZR n - x * 10 ^ k)%R with (IZR n - B2R f * 10 ^ k + (B2R f - x) * 10 ^ k)%R by ring.
  eapply Rle_trans; [apply Rabs_triang|]. apply Rplus_le_compat; [exact R|].
  rewrite Rabs_mult, (Rabs_pos_eq (10 ^ k)) by lra.
  replace (x * 10 ^ k * / 2 ^ 48)%R with (x * / 2 ^ 48 * 10 ^ k)%R by ring. apply Rmult_le_compat_r; lra.
Qed.

(** Small integers are exact. *)
Lemma of_exact n : 0 <= n < 2 ^ 53 -> B2R (f64_of n) = IZR n /\ rnd (IZR n) = IZR n.
Proof.
  intros N. assert (E : F2R (Float radix2 n 0) = IZR n) by (unfold F2R; cbn [Fnum Fexp]; apply Rmult_1_r).
  assert (G : rnd (IZR n) = IZR n).
  { apply round_generic; auto with typeclass_instances. rewrite <- E. apply generic_format_FLT.
    exists (Float radix2 n 0); cbn [Fnum Fexp]; auto; try lia. rewrite Z.abs_eq by lia. exact (proj2 N). }
  split; [|exact G].
  pose proof (@binary_normalize_correct 53 1024 f64_prec f64_emax mode_NE n 0 false) as C.
  cbv zeta in C. fold (f64_of n) in C. rewrite E in C.
  change (round radix2 (SpecFloat.fexp 53 1024) (round_mode mode_NE) (IZR n)) with (rnd (IZR n)) in C. rewrite G in C.
  rewrite Rlt_bool_true in C; [apply C|]. rewrite Rabs_pos_eq by (apply IZR_le; lia).
  apply Rlt_trans with (IZR (2 ^ 53)); [apply IZR_lt; lia|]. change (IZR (2 ^ 53)) with (bpow radix2 53). apply bpow_lt. lia.
Qed.
Lemma average_exact n l : 1 <= n -> 0 <= l -> n * l < 2 ^ 53 -> n < 2 ^ 53 ->
  fmt_f64 3 (f64_div (f64_of (n * l)) (f64_of n)) = fmt_fixed 3 (l * 1000).
Proof.
  intros N L T T'. assert (1 <= IZR n)%R by (apply IZR_le; lia).
  destruct (of_exact (n * l) ltac:(nia)) as [E1 _]. destruct (of_exact n ltac:(lia)) as [E2 _]. destruct (of_exact l ltac:(nia)) as [_ E3].
  pose proof (apx_average (n * l) n ltac:(nia) ltac:(nia)) as A.
  assert (V : B2R (f64_div (f64_of (n * l)) (f64_of n)) = IZR l).
  { pose proof (@Bdiv_correct 53 1024 f64_prec f64_emax mode_NE (f64_of (n * l)) (f64_of n) ltac:(rewrite E2; lra)) as C.
    fold (f64_div (f64_of (n * l)) (f64_of n)) in C. rewrite E1, E2 in C.
    replace (IZR (n * l) / IZR n)%R with (IZR l) in C by (rewrite mult_IZR; field; lra).
    change (round radix2 (SpecFloat.fexp 53 1024) (round_mode mode_NE) (IZR l)) with (rnd (IZR l)) in C. rewrite E3 in C.
    rewrite Rlt_bool_true in C; [apply C|]. rewrite Rabs_pos_eq by (apply IZR_le; lia).
    apply Rlt_trans with (IZR (2 ^ 53)); [apply IZR_lt; nia|]. change (IZR (2 ^ 53)) with (bpow radix2 53). apply bpow_lt. lia. }
  destruct A as (F & S & _). remember (f64_div (f64_of (n * l)) (f64_of n)) as q eqn:Eq. clear Eq.
  destruct q as [s|s| |s mant e Hb]; try discriminate; cbn in S; subst s; cbn [fmt_f64 app].
  - cbn [B2R] in V. apply eq_IZR in V. subst l. reflexivity.
  - f_equal. destruct (round_pow2_spec (Zpos mant * 10 ^ Z.of_nat 3) e ltac:(apply Z.mul_nonneg_nonneg; lia)) as [P R].
    unfold B2R, F2R in V. cbn [Fnum Fexp cond_Zopp] in V. rewrite mult_IZR in R.
    replace (IZR (Zpos mant) * IZR (10 ^ Z.of_nat 3) * bpow radix2 e)%R with (IZR (l * 1000)) in R.
    2: { rewrite mult_IZR, <- V. change (10 ^ Z.of_nat 3) with 1000. ring. }
    rewrite <- minus_IZR, <- abs_IZR in R. set (z := round_pow2 _ _) in *.
    assert (X : (IZR (Z.abs (z - l * 1000)) < 1)%R) by lra. apply lt_IZR in X. lia.
Qed.
