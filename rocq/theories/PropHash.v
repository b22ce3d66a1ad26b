(** Properties C31 and C32: combinatorics and the perfect hash.  Read with SpecComb.v. *)
From Verif Require Import HashFacts SpecVariants.
Open Scope Z_scope.

(** The binomial coefficient as a number (it is unique). *)
Lemma is_binomial_fun n k c c' : is_binomial n k c -> is_binomial n k c' -> c = c'.
Proof.
  intros (A & B) (A' & B'). destruct (le_lt_dec k n) as [H|H].
  - specialize (A H). specialize (A' H). rewrite A in A'.
    pose proof (lt_O_fact k). pose proof (lt_O_fact (n - k)).
    apply Z.mul_reg_r in A'; [auto|nia].
  - rewrite (B H), (B' H). reflexivity.
Qed.

(** ** C31 *)

(** [comb(n, k)], n >= 1: the binomial coefficient whenever it fits 64 bits; otherwise a debug build
    panics with an arithmetic overflow and a release build gives it modulo 2^64. *)
Theorem C31_comb : forall n k, (1 <= n)%nat -> exists c, is_binomial n k c /\ 0 <= c /\
  (c < 2 ^ 64 -> forall m, comb m n k = Ret c) /\
  (2 ^ 64 <= c -> comb Debug n k = Panic Overflow) /\
  comb Release n k = Ret (c mod 2 ^ 64).
Proof.
  intros n k H. exists (binom n k). split; [apply binom_spec|]. split; [apply binom_nonneg|].
  split; [intros B m; apply comb_ret; auto|]. split; [|apply comb_release; auto].
  intros B. rewrite comb_debug by auto. destruct (Z.ltb_spec (binom n k) (2 ^ 64)); [lia|reflexivity].
Qed.

(** [mcomb(n, k)], n >= 2: the number of multisets of size k over n kinds. *)
Theorem C31_mcomb : forall n k, (2 <= n)%nat -> exists c, is_multiset n k c /\ 0 <= c /\
  (c < 2 ^ 64 -> forall m, mcomb m n k = Ret c) /\
  (2 ^ 64 <= c -> mcomb Debug n k = Panic Overflow) /\
  mcomb Release n k = Ret (c mod 2 ^ 64).
Proof.
  intros n k H.
  assert (E : forall m, mcomb m n k = comb m (n + k - 1) k).
  { intros m. unfold mcomb. destruct (n + k)%nat as [|j] eqn:E; [lia|]. f_equal. lia. }
  destruct (C31_comb k (n := n + k - 1) ltac:(lia)) as (c & (S & _) & C0 & C1 & C2 & C3).
  exists c. split.
  { red. rewrite (S ltac:(lia)). f_equal. f_equal. f_equal. f_equal. lia. }
  split; auto. split; [intros B m; rewrite E; auto|]. rewrite !E. auto.
Qed.

(** The remaining arguments, n = 0 for [comb] and n <= 1 for [mcomb]: the value is right except for 0 over 0 and for the
    one multiset of size 0 over 1 kind, where it is 0; and [mcomb(0, 0)] underflows, which a release build survives. *)
Theorem C31_edges : forall m,
  (forall k, comb m 0 k = Ret 0) /\ (forall k, (1 <= k)%nat -> is_binomial 0 k 0) /\ is_binomial 0 0 1 /\
  (forall k, (1 <= k)%nat -> mcomb m 1 k = Ret 1) /\ (forall k, is_multiset 1 k 1) /\ mcomb m 1 0 = Ret 0 /\
  (forall k, (1 <= k)%nat -> mcomb m 0 k = Ret 0) /\
  mcomb Debug 0 0 = Panic Overflow /\ mcomb Release 0 0 = Ret 1.
Proof.
  intros m. split; [reflexivity|]. split; [intros k H; split; intros; [lia|reflexivity]|].
  split; [split; intros; [reflexivity|lia]|].
  split. { intros [|k] H; [lia|]. unfold mcomb. cbn [Nat.add comb]. rewrite Nat.eqb_refl. reflexivity. }
  split. { intros k. unfold is_multiset. replace (1 + k - 1)%nat with k by lia. change (fact (1 - 1)) with 1%nat. lia. }
  split; [reflexivity|].
  split; [|split; reflexivity].
  intros [|k] H; [lia|]. unfold mcomb. cbn [Nat.add].
  destruct k as [|k]; [reflexivity|]. cbn [comb].
  destruct (Nat.eqb_spec (S k) (S (S k))); [lia|]. destruct (Nat.ltb_spec (S k) (S (S k))); [reflexivity|lia].
Qed.

Example C31_example : comb Debug 10 4 = Ret 210 /\ mcomb Debug 24 3 = Ret 2600.
Proof. split; vm_compute; reflexivity. Qed.

Ltac solve_wf' := constructor; vm_compute; try reflexivity; try (split; intro; discriminate); intro; discriminate.

(** ** C32 *)

(** Full property: on the positions of each variant, [dbhash] never panics, distinguishes any two
    positions that are not equal, and stays below the square of the number [w] of ways to
    distribute one side's checkers over 24 points, the bar and off (26 kinds). *)
Definition hash_perfect (N : Z) : Prop := exists w, is_multiset 26 (Z.to_nat N) w /\
  forall m,
  (forall p, wf N p -> exists h, dbhash m N p = Ret h /\ 0 <= h < w * w) /\
  forall p q h, wf N p -> wf N q -> dbhash m N p = Ret h -> dbhash m N q = Ret h ->
    position_eqb p q = true.
Definition C32_statement : Prop := forall k, hash_perfect (checkers k).

Lemma width_spec N : is_multiset 26 (Z.to_nat N) (width N).
Proof.
  red. unfold width. pose proof (@binom_fact (25 + Z.to_nat N) (Z.to_nat N) ltac:(lia)) as F.
  rewrite <- binom_sym in F. replace (26 + Z.to_nat N - 1)%nat with (25 + Z.to_nat N)%nat by lia.
  replace (25 + Z.to_nat N - Z.to_nat N)%nat with 25%nat in F by lia.
  change (26 - 1)%nat with 25%nat. exact F.
Qed.
Lemma width_mono N N' : 0 <= N <= N' -> width N <= width N'.
Proof. intros H. apply binom_mono. lia. Qed.
Lemma width_12 : width 12 * width 12 < 2 ^ 64.
Proof. unfold width. rewrite row_binom. vm_compute. reflexivity. Qed.
Lemma width_15 : width 15 = 40225345056.
Proof. unfold width. rewrite row_binom. vm_compute. reflexivity. Qed.

Lemma digits_inj w a b a' b' : 0 <= b < w -> 0 <= b' < w -> a * w + b = a' * w + b' -> a = a' /\ b = b'.
Proof. intros B B' E. apply (Z.div_mod_unique w); lia. Qed.

(** Perfect for up to 12 checkers per side, so for all the hypergammon variants. *)
Theorem C32_perfect_hash_partial : forall N, 1 <= N <= 12 -> hash_perfect N.
Proof.
  intros N HN. exists (width N). split; [apply width_spec|]. intros m.
  pose proof (@width_mono N 12 ltac:(lia)) as B. pose proof width_12 as B12.
  assert (W0 : 0 <= width N) by apply binom_nonneg.
  assert (BB : width N * width N < 2 ^ 64) by nia.
  assert (B1 : width N < 2 ^ 64) by nia.
  assert (H : forall p, wf N p -> dbhash m N p = Ret (xindex N p * width N + oindex N p) /\
     0 <= xindex N p * width N + oindex N p < width N * width N).
  { intros p W. pose proof (xindex_bound W). pose proof (oindex_bound W).
    assert (0 <= xindex N p * width N + oindex N p < width N * width N) by nia.
    rewrite dbhash_ret by auto. split; auto.
    rewrite u64_ret by nia. rewrite bind_ret. rewrite u64_ret by lia. reflexivity. }
  split.
  - intros p W. destruct (H p W). eauto.
  - intros p q h Wp Wq Ep Eq. destruct (H p Wp) as (E1 & _), (H q Wq) as (E2 & _).
    rewrite Ep in E1. rewrite Eq in E2. inversion E1; inversion E2; subst.
    pose proof (xindex_bound Wp). pose proof (oindex_bound Wp).
    pose proof (xindex_bound Wq). pose proof (oindex_bound Wq).
    destruct (digits_inj _ _ H1 H4 H2).
    apply (index_inj Wp Wq); auto.
Qed.
Theorem C32_hypergammon_partial : forall k, In k [Hypergammon; Hypergammon2; Hypergammon4; Hypergammon5] ->
  hash_perfect (checkers k).
Proof.
  intros k [<-|[<-|[<-|[<-|[]]]]]; apply C32_perfect_hash_partial; simpl; lia.
Qed.

Example C32_example : wf 3 HYPERGAMMON /\ exists h, dbhash Debug 3 HYPERGAMMON = Ret h /\ 0 < h.
Proof. split; [solve_wf'|]. eexists. split; [vm_compute; reflexivity|reflexivity]. Qed.

(** With 15 checkers 64 bits are not enough: a debug build panics already on the start position,
    and in a release build different positions collide. *)
Lemma xindex_row N p : xindex N p =
  fold_right Z.add 0 (map (fun cr => nth (fst cr - 1) (row (fst cr - 2 + snd cr)) 0)
    (combine (map (fun k => 26 - k)%nat (seq 0 (length (nats (xs N p))))) (nats (xs N p)))).
Proof. apply cidx_row. Qed.
Lemma oindex_row N p : oindex N p =
  fold_right Z.add 0 (map (fun cr => nth (fst cr - 1) (row (fst cr - 2 + snd cr)) 0)
    (combine (map (fun k => 26 - k)%nat (seq 0 (length (nats (os N p))))) (nats (os N p)))).
Proof. apply cidx_row. Qed.

Definition ex_collide1 : position :=
  {| turn := true;
     pips := [0; 3; 0; 1; -1; 2; 3; 0; -2; 0; -1; 0; 0; 1; 0; -4; -1; 0; -1; -2; -1; 0; 3; -2; 0; 2];
     x_off := 0; o_off := 0 |}.
Definition ex_collide2 : position :=
  {| turn := true;
     pips := [0; 4; -5; -2; 0; 1; -4; 0; 1; 0; 0; 0; 1; 2; 1; 0; 1; 3; 0; -1; -1; 1; 0; 0; -1; 0];
     x_off := 0; o_off := 1 |}.
Theorem C32_collision_refuted : wf 15 ex_collide1 /\ wf 15 ex_collide2 /\
  position_eqb ex_collide1 ex_collide2 = false /\
  exists h, dbhash Release 15 ex_collide1 = Ret h /\ dbhash Release 15 ex_collide2 = Ret h.
Proof.
  assert (W1 : wf 15 ex_collide1) by solve_wf'. assert (W2 : wf 15 ex_collide2) by solve_wf'.
  split; auto. split; auto. split; [vm_compute; reflexivity|].
  assert (B : width 15 < 2 ^ 64) by (rewrite width_15; reflexivity).
  rewrite (dbhash_ret Release W1 B), (dbhash_ret Release W2 B). rewrite width_15, !xindex_row, !oindex_row.
  eexists. split; vm_compute; reflexivity.
Qed.
Theorem C32_start_overflow_refuted : wf 15 BACKGAMMON /\ dbhash Debug 15 BACKGAMMON = Panic Overflow.
Proof.
  assert (W : wf 15 BACKGAMMON) by solve_wf'. split; [exact W|].
  rewrite (dbhash_ret Debug W) by (rewrite width_15; reflexivity).
  rewrite width_15, xindex_row, oindex_row. vm_compute. reflexivity.
Qed.
Theorem C32_refuted : ~ C32_statement.
Proof.
  intros H. destruct (H Backgammon) as (w & _ & K). simpl in K.
  destruct C32_collision_refuted as (W1 & W2 & E & h & E1 & E2).
  destruct (K Release) as (_ & K2). rewrite (K2 _ _ _ W1 W2 E1 E2) in E. discriminate E.
Qed.

Print Assumptions C31_mcomb.
Print Assumptions C32_perfect_hash_partial.
Print Assumptions C32_refuted.
