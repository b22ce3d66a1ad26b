(** Binomials, and [dbhash] as a combinatorial number system. *)
From Verif Require Export Utils SpecComb SpecRules BaseFacts.
From Verif Require Import MoveFacts.
Open Scope Z_scope.

(** Pascal's triangle, by rows. *)
Fixpoint next_row (a : Z) (l : list Z) : list Z :=
  match l with [] => [a] | b :: l' => (a + b) :: next_row b l' end.
Fixpoint row (n : nat) : list Z := match n with O => [1] | S n' => next_row 0 (row n') end.
Lemma next_row_nth l : forall a k, nth k (next_row a l) 0 = (if (k =? 0)%nat then a else nth (k - 1) l 0) + nth k l 0.
Proof.
  induction l as [|b l IH]; intros a k; simpl.
  - destruct k as [|[|k]]; simpl; lia.
  - destruct k as [|k]; simpl; [lia|]. rewrite IH. destruct k as [|k]; simpl; auto. do 2 f_equal. simpl. lia.
Qed.
(** Sealed, so that no conversion test computes it by accident. *)
Lemma binom_sig : { f : nat -> nat -> Z | forall n k, f n k = nth k (row n) 0 }.
Proof. exists (fun n k => nth k (row n) 0). reflexivity. Qed.
Definition binom : nat -> nat -> Z := proj1_sig binom_sig.
Lemma row_binom n k : binom n k = nth k (row n) 0.
Proof. exact (proj2_sig binom_sig n k). Qed.

Lemma binom_0 n : binom n 0 = 1.
Proof. rewrite row_binom. induction n; simpl; auto. rewrite next_row_nth. simpl. lia. Qed.
Lemma binom_O k : binom 0 (S k) = 0.
Proof. rewrite row_binom. destruct k; reflexivity. Qed.
Lemma binom_S n k : binom (S n) (S k) = binom n k + binom n (S k).
Proof. rewrite !row_binom. simpl row. rewrite next_row_nth. cbn [Nat.eqb]. replace (S k - 1)%nat with k by lia. reflexivity. Qed.
Lemma binom_nonneg n : forall k, 0 <= binom n k.
Proof.
  induction n as [|n IH]; intros [|k]; rewrite ?binom_0, ?binom_O, ?binom_S; try lia.
  pose proof (IH k). pose proof (IH (S k)). lia.
Qed.
Lemma binom_gt n : forall k, (n < k)%nat -> binom n k = 0.
Proof.
  induction n as [|n IH]; intros [|k] H; rewrite ?binom_0, ?binom_O, ?binom_S; try lia.
  rewrite !IH by lia. reflexivity.
Qed.
Lemma binom_nn n : binom n n = 1.
Proof. induction n as [|n IH]; rewrite ?binom_0, ?binom_S; auto. rewrite IH, binom_gt by lia. reflexivity. Qed.
Lemma binom_mono n n' k : (n <= n')%nat -> binom n k <= binom n' k.
Proof.
  induction 1 as [|n' H IH]; [lia|]. destruct k; [rewrite !binom_0; lia|].
  rewrite binom_S. pose proof (binom_nonneg n' k). lia.
Qed.

Lemma fact_S_Z n : Z.of_nat (fact (S n)) = (Z.of_nat n + 1) * Z.of_nat (fact n).
Proof. change (fact (S n)) with (S n * fact n)%nat. rewrite Nat2Z.inj_mul. f_equal. lia. Qed.

Lemma binom_fact n : forall k, (k <= n)%nat ->
  Z.of_nat (fact n) = binom n k * (Z.of_nat (fact k) * Z.of_nat (fact (n - k))).
Proof.
  induction n as [|n IH]; intros [|k] H; try lia; [rewrite binom_0; reflexivity| |].
  { rewrite binom_0, Nat.sub_0_r. change (Z.of_nat (fact 0)) with 1. lia. }
  rewrite binom_S. destruct (Nat.eq_dec k n) as [->|].
  { rewrite binom_nn, binom_gt by lia. rewrite Nat.sub_diag. change (Z.of_nat (fact 0)) with 1. lia. }
  pose proof (IH k ltac:(lia)) as A. pose proof (IH (S k) ltac:(lia)) as B.
  replace (S n - S k)%nat with (n - k)%nat by lia.
  replace (n - k)%nat with (S (n - S k)) in * by lia.
  rewrite (fact_S_Z n), (fact_S_Z k) in *. rewrite fact_S_Z in *.
  set (u := Z.of_nat (fact k)) in *. set (v := Z.of_nat (fact (n - S k))) in *.
  set (b1 := binom n k) in *. set (b2 := binom n (S k)) in *.
  assert (E : Z.of_nat n = Z.of_nat k + (Z.of_nat (n - S k) + 1)) by lia.
  rewrite E at 1.
  replace ((Z.of_nat k + (Z.of_nat (n - S k) + 1) + 1) * Z.of_nat (fact n))
    with ((Z.of_nat k + 1) * Z.of_nat (fact n) + (Z.of_nat (n - S k) + 1) * Z.of_nat (fact n)) by ring.
  rewrite A at 1. rewrite B at 1. ring.
Qed.

Lemma binom_spec n k : is_binomial n k (binom n k).
Proof. split; intros; [apply binom_fact; auto|apply binom_gt; auto]. Qed.

(** The model's [comb]. *)
Lemma comb_release n : forall k, (1 <= n)%nat -> comb Release n k = Ret (binom n k mod 2 ^ 64).
Proof.
  induction n as [|n IH]; intros k H; [lia|]. cbn [comb].
  destruct k as [|k]; [rewrite binom_0; reflexivity|].
  destruct (Nat.eqb_spec (S n) (S k)) as [E|E].
  { inversion E; subst. rewrite binom_nn. reflexivity. }
  destruct (Nat.ltb_spec (S n) (S k)) as [L|L].
  { rewrite binom_gt by lia. reflexivity. }
  rewrite !IH by lia. rewrite !bind_ret. rewrite binom_S. unfold u64.
  pose proof (Z.mod_pos_bound (binom n k) (2 ^ 64) ltac:(lia)).
  pose proof (Z.mod_pos_bound (binom n (S k)) (2 ^ 64) ltac:(lia)).
  destruct (in_u64 _) eqn:B.
  - unfold in_u64 in B. apply andb_true_iff in B. destruct B as [B1 B2].
    apply Z.ltb_lt in B2. rewrite Z.add_mod by lia.
    rewrite (Z.mod_small (_ + _)) by lia. reflexivity.
  - unfold wrap_u64. rewrite <- Z.add_mod by lia. reflexivity.
Qed.
Lemma comb_debug n : forall k, (1 <= n)%nat ->
  comb Debug n k = if binom n k <? 2 ^ 64 then Ret (binom n k) else Panic Overflow.
Proof.
  induction n as [|n IH]; intros k H; [lia|]. cbn [comb].
  destruct k as [|k]; [rewrite binom_0; reflexivity|].
  destruct (Nat.eqb_spec (S n) (S k)) as [E|E].
  { inversion E; subst. rewrite binom_nn. reflexivity. }
  destruct (Nat.ltb_spec (S n) (S k)) as [L|L].
  { rewrite binom_gt by lia. reflexivity. }
  rewrite !IH by lia. rewrite binom_S.
  pose proof (binom_nonneg n k). pose proof (binom_nonneg n (S k)).
  set (a := binom n k) in *. set (b := binom n (S k)) in *.
  destruct (Z.ltb_spec a (2 ^ 64)), (Z.ltb_spec b (2 ^ 64)); cbn [bind];
    destruct (Z.ltb_spec (a + b) (2 ^ 64)); auto; try lia.
  - apply u64_ret. lia.
  - unfold u64, in_u64. destruct (Z.leb_spec 0 (a + b)), (Z.ltb_spec (a + b) (2 ^ 64)); auto; lia.
Qed.
Lemma comb_ret m n k : (1 <= n)%nat -> binom n k < 2 ^ 64 -> comb m n k = Ret (binom n k).
Proof.
  intros H B. pose proof (binom_nonneg n k). destruct m.
  - rewrite comb_debug by auto. apply Z.ltb_lt in B. rewrite B. reflexivity.
  - rewrite comb_release by auto. rewrite Z.mod_small by lia. reflexivity.
Qed.
Lemma binom_sym a : forall b, binom (a + b) a = binom (a + b) b.
Proof.
  intros b. pose proof (@binom_fact (a + b) a ltac:(lia)) as A.
  pose proof (@binom_fact (a + b) b ltac:(lia)) as B.
  replace (a + b - a)%nat with b in A by lia. replace (a + b - b)%nat with a in B by lia.
  rewrite (Z.mul_comm (Z.of_nat (fact b))) in B.
  pose proof (lt_O_fact a). pose proof (lt_O_fact b).
  apply (Z.mul_reg_r _ _ (Z.of_nat (fact a) * Z.of_nat (fact b))); [nia|lia].
Qed.
(** [mcomb m c k] with c >= 2 is binom (c-1+k) (c-1). *)
Lemma mcomb_ret m c k : (2 <= c)%nat -> binom (c - 1 + k) (c - 1) < 2 ^ 64 ->
  mcomb m c k = Ret (binom (c - 1 + k) (c - 1)).
Proof.
  intros C B. unfold mcomb. destruct (c + k)%nat as [|j] eqn:E; [lia|].
  assert (J : j = (c - 1 + k)%nat) by lia. rewrite J.
  rewrite comb_ret; [|lia|rewrite <- binom_sym; auto]. rewrite binom_sym. reflexivity.
Qed.

(** ** The combinatorial number system. *)

(** [cidx c rs]: the index of a sequence of remaining counts, [c] = 26 for the first. *)
Fixpoint cidx (c : nat) (rs : list nat) : Z :=
  match rs with
  | [] => 0
  | r :: rs' => binom (c - 2 + r) (c - 1) + cidx (c - 1) rs'
  end.

Inductive noninc : nat -> list nat -> Prop :=
| ni_nil b : noninc b []
| ni_cons b r rs : (r <= b)%nat -> noninc r rs -> noninc b (r :: rs).

Lemma cidx_nonneg rs : forall c, 0 <= cidx c rs.
Proof.
  induction rs as [|r rs IH]; intros c; simpl; [lia|].
  pose proof (binom_nonneg (c - 2 + r) (c - 1)). pose proof (IH (c - 1)%nat). lia.
Qed.

Lemma cidx_bound rs : forall c b, noninc b rs -> (c = length rs + 1)%nat ->
  cidx c rs < binom (c - 1 + b) (c - 1).
Proof.
  induction rs as [|r rs IH]; intros c b H C; inversion H; subst.
  - cbn [cidx length]. change (0 + 1 - 1)%nat with 0%nat. rewrite binom_0. lia.
  - simpl length in *. cbn [cidx].
    pose proof (IH (length rs + 1)%nat r ltac:(auto) eq_refl) as B.
    replace (S (length rs) + 1 - 1)%nat with (S (length rs)) by lia.
    replace (S (length rs) + 1 - 2)%nat with (length rs) by lia.
    replace (length rs + 1)%nat with (S (length rs)) in B by lia.
    replace (S (length rs) - 1)%nat with (length rs) in B by lia.
    apply Z.lt_le_trans with (binom (S (length rs) + r) (S (length rs))).
    + simpl plus. rewrite binom_S. lia.
    + apply binom_mono. lia.
Qed.

Lemma cidx_inj : forall rs rs' c b b', noninc b rs -> noninc b' rs' -> length rs = length rs' ->
  (c = length rs + 1)%nat -> cidx c rs = cidx c rs' -> rs = rs'.
Proof.
  induction rs as [|r rs IH]; intros [|r' rs'] c b b' H H' L C E; simpl in L; try lia; auto.
  inversion H; inversion H'; subst. simpl length in *. cbn [cidx] in E.
  replace (S (length rs) + 1 - 1)%nat with (length rs + 1)%nat in E by lia.
  replace (S (length rs) + 1 - 2)%nat with (length rs) in E by lia.
  assert (K : forall s s' ss ss', (s < s')%nat -> length ss = length rs -> noninc s ss ->
     binom (length rs + s) (length rs + 1) + cidx (length rs + 1) ss <
     binom (length rs + s') (length rs + 1) + cidx (length rs + 1) ss').
  { intros s s' ss ss' Hs Ls Hn.
    pose proof (@cidx_bound ss (length rs + 1) s Hn ltac:(lia)) as B.
    replace (length rs + 1 - 1)%nat with (length rs) in B by lia.
    pose proof (cidx_nonneg ss' (length rs + 1)).
    apply Z.lt_le_trans with (binom (length rs + s') (length rs + 1)); [|lia].
    apply Z.lt_le_trans with (binom (S (length rs + s)) (length rs + 1)).
    - replace (length rs + 1)%nat with (S (length rs)) in * by lia. rewrite binom_S. lia.
    - apply binom_mono. lia. }
  destruct (lt_eq_lt_dec r r') as [[Lt|Eq]|Gt].
  - pose proof (K r r' rs rs' Lt eq_refl ltac:(auto)). lia.
  - subst r'. f_equal. apply (IH rs' (length rs + 1)%nat r r); auto; lia.
  - pose proof (K r' r rs' rs Gt ltac:(lia) ltac:(auto)). lia.
Qed.

(** ** [dbhash] *)

(** Remaining counts after points 1..i; x's include its bar (25), o's include its bar (0). *)
Fixpoint xrem (p : position) (r : Z) (is_ : list nat) : list Z :=
  match is_ with
  | [] => []
  | i :: l => (r - Z.max 0 (pt p i)) :: xrem p (r - Z.max 0 (pt p i)) l
  end.
Fixpoint orem (p : position) (r : Z) (is_ : list nat) : list Z :=
  match is_ with
  | [] => []
  | i :: l => (r - Z.max 0 (- pt p i)) :: orem p (r - Z.max 0 (- pt p i)) l
  end.
Definition xs (N : Z) (p : position) : list Z := (N - x_off p) :: xrem p (N - x_off p) (seq 1 24).
Definition os (N : Z) (p : position) : list Z := (N - o_off p) :: orem p (N - o_off p) (seq 1 24).

Lemma xrem_inj p q : forall l r r', xrem p r l = xrem q r' l -> r = r' ->
  forall i, In i l -> Z.max 0 (pt p i) = Z.max 0 (pt q i).
Proof.
  induction l as [|j l IH]; simpl; intros r r' H E i I; [tauto|]. inversion H.
  destruct I as [->|I]; [lia|]. eapply IH; eauto.
Qed.
Lemma orem_inj p q : forall l r r', orem p r l = orem q r' l -> r = r' ->
  forall i, In i l -> Z.max 0 (- pt p i) = Z.max 0 (- pt q i).
Proof.
  induction l as [|j l IH]; simpl; intros r r' H E i I; [tauto|]. inversion H.
  destruct I as [->|I]; [lia|]. eapply IH; eauto.
Qed.
Lemma xrem_length p : forall l r, length (xrem p r l) = length l.
Proof. induction l; simpl; auto. Qed.
Lemma orem_length p : forall l r, length (orem p r l) = length l.
Proof. induction l; simpl; auto. Qed.

(** Sums over the board. *)
Lemma pips_seq p : length (pips p) = 26%nat -> pips p = map (pt p) (seq 0 26).
Proof.
  intros H. apply nth_ext26; auto. intros i Hi. symmetry.
  rewrite (nth_indep (map (pt p) (seq 0 26)) 0 (pt p 26)) by (rewrite map_length, seq_length; lia).
  rewrite map_nth, seq_nth by lia. reflexivity.
Qed.
Lemma x_board N p : wf N p -> N - x_off p = sumZ (map (fun i => Z.max 0 (pt p i)) (seq 1 24)) + pt p 25.
Proof.
  intros W. pose proof (wf_x W) as X. unfold x_checkers in X. rewrite (pips_seq p (wf_len W)) in X.
  rewrite map_map in X. change (seq 0 26) with ([0%nat] ++ seq 1 24 ++ [25%nat]) in X.
  rewrite !map_app, !sumZ_app in X. simpl (sumZ (map _ [_])) in X.
  pose proof (wf_xbar W). pose proof (wf_obar W). lia.
Qed.
Lemma o_board N p : wf N p -> N - o_off p = sumZ (map (fun i => Z.max 0 (- pt p i)) (seq 1 24)) - pt p 0.
Proof.
  intros W. pose proof (wf_o W) as X. unfold o_checkers in X. rewrite (pips_seq p (wf_len W)) in X.
  rewrite map_map in X. change (seq 0 26) with ([0%nat] ++ seq 1 24 ++ [25%nat]) in X.
  rewrite !map_app, !sumZ_app in X. simpl (sumZ (map _ [_])) in X.
  pose proof (wf_xbar W). pose proof (wf_obar W). lia.
Qed.

Definition nats (l : list Z) : list nat := map Z.to_nat l.

(** Non-increasing and non-negative sequences. *)
Lemma xrem_noninc p : forall l r, sumZ (map (fun i => Z.max 0 (pt p i)) l) <= r ->
  noninc (Z.to_nat r) (nats (xrem p r l)) /\ Forall (fun v => 0 <= v <= r) (xrem p r l).
Proof.
  induction l as [|i l IH]; intros r H; simpl in *; [repeat constructor|].
  assert (0 <= sumZ (map (fun i => Z.max 0 (pt p i)) l)).
  { rewrite <- (map_map (pt p) (fun v => Z.max 0 v)). apply sumZ_nonneg. intros; lia. }
  destruct (IH (r - Z.max 0 (pt p i)) ltac:(lia)) as (A & B). split.
  - constructor; [lia|auto].
  - constructor; [lia|]. eapply Forall_impl; [|exact B]. simpl. lia.
Qed.
Lemma orem_noninc p : forall l r, sumZ (map (fun i => Z.max 0 (- pt p i)) l) <= r ->
  noninc (Z.to_nat r) (nats (orem p r l)) /\ Forall (fun v => 0 <= v <= r) (orem p r l).
Proof.
  induction l as [|i l IH]; intros r H; simpl in *; [repeat constructor|].
  assert (0 <= sumZ (map (fun i => Z.max 0 (- pt p i)) l)).
  { rewrite <- (map_map (pt p) (fun v => Z.max 0 (- v))). apply sumZ_nonneg. intros; lia. }
  destruct (IH (r - Z.max 0 (- pt p i)) ltac:(lia)) as (A & B). split.
  - constructor; [lia|auto].
  - constructor; [lia|]. eapply Forall_impl; [|exact B]. simpl. lia.
Qed.

Lemma xs_noninc N p : wf N p -> noninc (Z.to_nat N) (nats (xs N p)) /\ length (nats (xs N p)) = 25%nat
  /\ Forall (fun v => 0 <= v <= N) (xs N p).
Proof.
  intros W. pose proof (x_board W) as B. pose proof (wf_xbar W). pose proof (wf_xoff W).
  assert (0 <= sumZ (map (fun i => Z.max 0 (pt p i)) (seq 1 24))).
  { rewrite <- (map_map (pt p) (fun v => Z.max 0 v)). apply sumZ_nonneg. intros; lia. }
  destruct (xrem_noninc p (seq 1 24) (r := N - x_off p) ltac:(lia)) as (A1 & A2).
  unfold xs. split; [constructor; [lia|exact A1]|]. split.
  - unfold nats. rewrite map_length. cbn [length]. rewrite xrem_length. reflexivity.
  - constructor; [lia|]. eapply Forall_impl; [|exact A2]. simpl. lia.
Qed.
Lemma os_noninc N p : wf N p -> noninc (Z.to_nat N) (nats (os N p)) /\ length (nats (os N p)) = 25%nat
  /\ Forall (fun v => 0 <= v <= N) (os N p).
Proof.
  intros W. pose proof (o_board W) as B. pose proof (wf_obar W). pose proof (wf_ooff W).
  assert (0 <= sumZ (map (fun i => Z.max 0 (- pt p i)) (seq 1 24))).
  { rewrite <- (map_map (pt p) (fun v => Z.max 0 (- v))). apply sumZ_nonneg. intros; lia. }
  destruct (orem_noninc p (seq 1 24) (r := N - o_off p) ltac:(lia)) as (A1 & A2).
  unfold os. split; [constructor; [lia|exact A1]|]. split.
  - unfold nats. rewrite map_length. cbn [length]. rewrite orem_length. reflexivity.
  - constructor; [lia|]. eapply Forall_impl; [|exact A2]. simpl. lia.
Qed.

Lemma nats_inj l l' : Forall (fun v => 0 <= v) l -> Forall (fun v => 0 <= v) l' -> nats l = nats l' -> l = l'.
Proof.
  revert l'; induction l as [|a l IH]; intros [|b l'] F F' E; simpl in E; try discriminate; auto.
  inversion F; inversion F'; inversion E; subst. f_equal; auto. lia.
Qed.

(** The two indices, and the size of their range. *)
Definition xindex (N : Z) (p : position) : Z := cidx 26 (nats (xs N p)).
Definition oindex (N : Z) (p : position) : Z := cidx 26 (nats (os N p)).
Definition width (N : Z) : Z := binom (25 + Z.to_nat N) 25.

Lemma xindex_eq N p : xindex N p = cidx 26 (nats (xs N p)).
Proof. unfold xindex. reflexivity. Qed.
Lemma oindex_eq N p : oindex N p = cidx 26 (nats (os N p)).
Proof. unfold oindex. reflexivity. Qed.
Lemma xindex_bound N p : wf N p -> 0 <= xindex N p < width N.
Proof.
  intros W. destruct (xs_noninc W) as (A & L & _). split; [apply cidx_nonneg|].
  apply (cidx_bound A (c := 26)). rewrite L. reflexivity.
Qed.
Lemma oindex_bound N p : wf N p -> 0 <= oindex N p < width N.
Proof.
  intros W. destruct (os_noninc W) as (A & L & _). split; [apply cidx_nonneg|].
  apply (cidx_bound A (c := 26)). rewrite L. reflexivity.
Qed.

Lemma xindex_xs N p q : wf N p -> wf N q -> xindex N p = xindex N q -> xs N p = xs N q.
Proof.
  intros Wp Wq EX. rewrite !xindex_eq in EX.
  destruct (xs_noninc Wp) as (A1 & L1 & F1), (xs_noninc Wq) as (A2 & L2 & F2).
  apply nats_inj.
  - eapply Forall_impl; [|exact F1]. simpl; lia.
  - eapply Forall_impl; [|exact F2]. simpl; lia.
  - clear F1 F2. revert EX A1 A2 L1 L2. generalize (nats (xs N p)) (nats (xs N q)). clear Wp Wq. intros l l' EX A1 A2 L1 L2.
    refine (@cidx_inj _ _ 26 _ _ A1 A2 (eq_trans L1 (eq_sym L2)) _ EX). rewrite L1; reflexivity.
Qed.
Lemma oindex_os N p q : wf N p -> wf N q -> oindex N p = oindex N q -> os N p = os N q.
Proof.
  intros Wp Wq EX. rewrite !oindex_eq in EX.
  destruct (os_noninc Wp) as (A1 & L1 & F1), (os_noninc Wq) as (A2 & L2 & F2).
  apply nats_inj.
  - eapply Forall_impl; [|exact F1]. simpl; lia.
  - eapply Forall_impl; [|exact F2]. simpl; lia.
  - clear F1 F2. revert EX A1 A2 L1 L2. generalize (nats (os N p)) (nats (os N q)). clear Wp Wq. intros l l' EX A1 A2 L1 L2.
    refine (@cidx_inj _ _ 26 _ _ A1 A2 (eq_trans L1 (eq_sym L2)) _ EX). rewrite L1; reflexivity.
Qed.
Lemma cons_inv (a b : Z) l l' : a :: l = b :: l' -> a = b /\ l = l'.
Proof. intros H; inversion H; auto. Qed.
Lemma xs_inj N p q : xs N p = xs N q -> N - x_off p = N - x_off q /\
  forall i, In i (seq 1 24) -> Z.max 0 (pt p i) = Z.max 0 (pt q i).
Proof.
  unfold xs. intros X. apply cons_inv in X. destruct X as (X1 & X2). split; auto.
  exact (xrem_inj _ _ _ X2 X1).
Qed.
Lemma os_inj N p q : os N p = os N q -> N - o_off p = N - o_off q /\
  forall i, In i (seq 1 24) -> Z.max 0 (- pt p i) = Z.max 0 (- pt q i).
Proof.
  unfold os. intros X. apply cons_inv in X. destruct X as (X1 & X2). split; auto.
  exact (orem_inj _ _ _ X2 X1).
Qed.
Lemma index_inj N p q : wf N p -> wf N q -> xindex N p = xindex N q -> oindex N p = oindex N q ->
  position_eqb p q = true.
Proof.
  intros Wp Wq EX EO.
  destruct (xs_inj (xindex_xs Wp Wq EX)) as (X1 & X3).
  destruct (os_inj (oindex_os Wp Wq EO)) as (O1 & O3).
  pose proof (x_board Wp) as BX. pose proof (x_board Wq) as BX'.
  pose proof (o_board Wp) as BO. pose proof (o_board Wq) as BO'.
  rewrite (map_ext_in _ _ _ X3) in BX. rewrite (map_ext_in _ _ _ O3) in BO.
  assert (P : pips p = pips q).
  { apply nth_ext26; [apply Wp|apply Wq|]. intros i Hi. fold (pt p i) (pt q i).
    destruct (Nat.eq_dec i 0) as [->|]; [lia|]. destruct (Nat.eq_dec i 25) as [->|]; [lia|].
    specialize (X3 i ltac:(apply in_seq; lia)). specialize (O3 i ltac:(apply in_seq; lia)). lia. }
  unfold position_eqb. rewrite P. destruct (list_eq_dec _ _ _); [|congruence].
  simpl. apply andb_true_iff. rewrite !Z.eqb_eq. lia.
Qed.

(** The model computes the indices. *)
Lemma dbh_term_ret m c r : (2 <= c)%nat -> 0 <= r -> binom (c - 2 + Z.to_nat r) (c - 1) < 2 ^ 64 ->
  dbh_term m c r = Ret (binom (c - 2 + Z.to_nat r) (c - 1)).
Proof.
  intros C R B. unfold dbh_term. destruct (Z.ltb_spec 0 r).
  - assert (E : (c - 2 + Z.to_nat r = c - 1 + Z.to_nat (r - 1))%nat) by lia. rewrite E in *.
    apply mcomb_ret; auto.
  - rewrite binom_gt by lia. reflexivity.
Qed.

Lemma dbh_step_ret m N p i xr or xi oi : wf N p -> (1 <= i <= 24)%nat ->
  Z.max 0 (pt p i) <= xr <= 127 -> Z.max 0 (- pt p i) <= or <= 127 ->
  let xr' := xr - Z.max 0 (pt p i) in let or' := or - Z.max 0 (- pt p i) in
  let tx := binom (24 - i + Z.to_nat xr') (25 - i) in let to := binom (24 - i + Z.to_nat or') (25 - i) in
  0 <= xi -> 0 <= oi -> xi + tx < 2 ^ 64 -> oi + to < 2 ^ 64 ->
  dbh_step m p (xr, or, xi, oi) i = Ret (xr', or', xi + tx, oi + to).
Proof.
  intros W Hi HX HO xr' or' tx to X0 O0 BX BO. unfold dbh_step, pip. cbv beta iota.
  rewrite (index_ret _ 0) by (rewrite (wf_len W); lia). rewrite bind_ret. fold (pt p i).
  assert (E : (if pt p i <? 0 then o <- zsub m or (- pt p i) ;; Ret (xr, o)
               else if 0 <? pt p i then x <- zsub m xr (pt p i) ;; Ret (x, or) else Ret (xr, or))
              = Ret (xr', or')).
  { unfold zsub. destruct (Z.ltb_spec (pt p i) 0).
    - rewrite u64_ret by lia. simpl. repeat f_equal; lia.
    - destruct (Z.ltb_spec 0 (pt p i)); [rewrite u64_ret by lia|]; simpl; repeat f_equal; lia. }
  rewrite E, bind_ret.
  assert (NX : 0 <= tx) by apply binom_nonneg. assert (NO : 0 <= to) by apply binom_nonneg.
  assert (EO : (if 0 <? or' then t <- mcomb m (26 - i) (Z.to_nat (or' - 1)) ;; u64 m (oi + t) else Ret oi)
               = Ret (oi + to)).
  { destruct (Z.ltb_spec 0 or').
    - rewrite mcomb_ret.
      + rewrite bind_ret. replace (26 - i - 1)%nat with (25 - i)%nat by lia.
        replace (25 - i + Z.to_nat (or' - 1))%nat with (24 - i + Z.to_nat or')%nat by lia.
        apply u64_ret. fold to. lia.
      + lia.
      + replace (26 - i - 1)%nat with (25 - i)%nat by lia.
        replace (25 - i + Z.to_nat (or' - 1))%nat with (24 - i + Z.to_nat or')%nat by lia. fold to. lia.
    - unfold to. rewrite binom_gt by lia. f_equal. lia. }
  rewrite EO, bind_ret.
  assert (EX : (if 0 <? xr' then t <- mcomb m (26 - i) (Z.to_nat (xr' - 1)) ;; u64 m (xi + t) else Ret xi)
               = Ret (xi + tx)).
  { destruct (Z.ltb_spec 0 xr').
    - rewrite mcomb_ret.
      + rewrite bind_ret. replace (26 - i - 1)%nat with (25 - i)%nat by lia.
        replace (25 - i + Z.to_nat (xr' - 1))%nat with (24 - i + Z.to_nat xr')%nat by lia.
        apply u64_ret. fold tx. lia.
      + lia.
      + replace (26 - i - 1)%nat with (25 - i)%nat by lia.
        replace (25 - i + Z.to_nat (xr' - 1))%nat with (24 - i + Z.to_nat xr')%nat by lia. fold tx. lia.
    - unfold tx. rewrite binom_gt by lia. f_equal. lia. }
  rewrite EX, bind_ret. reflexivity.
Qed.

Lemma dbh_loop_ret m N p : wf N p -> forall n i xr or xi oi, (i + n = 25)%nat -> (1 <= i)%nat ->
  sumZ (map (fun i => Z.max 0 (pt p i)) (seq i n)) <= xr <= 127 ->
  sumZ (map (fun i => Z.max 0 (- pt p i)) (seq i n)) <= or <= 127 ->
  0 <= xi -> 0 <= oi ->
  xi + cidx (26 - i) (nats (xrem p xr (seq i n))) < 2 ^ 64 ->
  oi + cidx (26 - i) (nats (orem p or (seq i n))) < 2 ^ 64 ->
  exists a b, mfold (dbh_step m p) (seq i n) (xr, or, xi, oi) =
    Ret (a, b, xi + cidx (26 - i) (nats (xrem p xr (seq i n))), oi + cidx (26 - i) (nats (orem p or (seq i n)))).
Proof.
  intros W. induction n as [|n IH]; intros i xr or xi oi E1 E2 SX SO X0 O0 BX BO.
  - exists xr, or. simpl. repeat f_equal; lia.
  - cbn [seq mfold]. cbn [seq xrem orem nats map cidx] in *. cbn [sumZ fold_right map] in SX, SO.
    fold (sumZ (map (fun i => Z.max 0 (pt p i)) (seq (S i) n))) in SX.
    fold (sumZ (map (fun i => Z.max 0 (- pt p i)) (seq (S i) n))) in SO.
    set (xr' := xr - Z.max 0 (pt p i)) in *. set (or' := or - Z.max 0 (- pt p i)) in *.
    fold (nats (xrem p xr' (seq (S i) n))) in *. fold (nats (orem p or' (seq (S i) n))) in *.
    replace (26 - i - 2)%nat with (24 - i)%nat in * by lia.
    replace (26 - i - 1)%nat with (25 - i)%nat in * by lia.
    assert (P1 : 0 <= sumZ (map (fun i => Z.max 0 (pt p i)) (seq (S i) n))).
    { rewrite <- (map_map (pt p) (fun v => Z.max 0 v)). apply sumZ_nonneg. intros; lia. }
    assert (P2 : 0 <= sumZ (map (fun i => Z.max 0 (- pt p i)) (seq (S i) n))).
    { rewrite <- (map_map (pt p) (fun v => Z.max 0 (- v))). apply sumZ_nonneg. intros; lia. }
    pose proof (cidx_nonneg (nats (xrem p xr' (seq (S i) n))) (25 - i)).
    pose proof (cidx_nonneg (nats (orem p or' (seq (S i) n))) (25 - i)).
    pose proof (binom_nonneg (24 - i + Z.to_nat xr') (25 - i)).
    pose proof (binom_nonneg (24 - i + Z.to_nat or') (25 - i)).
    rewrite (@dbh_step_ret m N p i xr or xi oi) by (auto; fold xr' or'; lia).
    fold xr' or'. rewrite bind_ret.
    destruct (IH (S i) xr' or' (xi + binom (24 - i + Z.to_nat xr') (25 - i))
                 (oi + binom (24 - i + Z.to_nat or') (25 - i))) as (a & b & E); try lia.
    + replace (26 - S i)%nat with (25 - i)%nat by lia. lia.
    + replace (26 - S i)%nat with (25 - i)%nat by lia. lia.
    + replace (26 - S i)%nat with (25 - i)%nat in E by lia.
      exists a, b. rewrite E. rewrite !Z.add_assoc. reflexivity.
Qed.

Lemma dbhash_ret m N p : wf N p -> width N < 2 ^ 64 ->
  dbhash m N p = (h <- u64 m (xindex N p * width N) ;; u64 m (h + oindex N p)).
Proof.
  intros W B. unfold dbhash. pose proof (wf_N W). pose proof (wf_xoff W). pose proof (wf_ooff W).
  pose proof (x_board W) as BX. pose proof (o_board W) as BO. pose proof (wf_xbar W). pose proof (wf_obar W).
  assert (P1 : 0 <= sumZ (map (fun i => Z.max 0 (pt p i)) (seq 1 24))).
  { rewrite <- (map_map (pt p) (fun v => Z.max 0 v)). apply sumZ_nonneg. intros; lia. }
  assert (P2 : 0 <= sumZ (map (fun i => Z.max 0 (- pt p i)) (seq 1 24))).
  { rewrite <- (map_map (pt p) (fun v => Z.max 0 (- v))). apply sumZ_nonneg. intros; lia. }
  pose proof (xindex_bound W) as IX. pose proof (oindex_bound W) as IO.
  unfold xindex, oindex, xs, os, nats in IX, IO. cbn [map cidx] in IX, IO.
  fold (nats (xrem p (N - x_off p) (seq 1 24))) in IX. fold (nats (orem p (N - o_off p) (seq 1 24))) in IO.
  change (26 - 2)%nat with 24%nat in *. change (26 - 1)%nat with 25%nat in *.
  pose proof (cidx_nonneg (nats (xrem p (N - x_off p) (seq 1 24))) 25).
  pose proof (cidx_nonneg (nats (orem p (N - o_off p) (seq 1 24))) 25).
  pose proof (binom_nonneg (24 + Z.to_nat (N - x_off p)) 25).
  pose proof (binom_nonneg (24 + Z.to_nat (N - o_off p)) 25).
  rewrite !u8_ret by lia. rewrite !bind_ret.
  rewrite !dbh_term_ret by (try lia; change (26 - 2)%nat with 24%nat; change (26 - 1)%nat with 25%nat; lia).
  rewrite !bind_ret. change (26 - 2)%nat with 24%nat. change (26 - 1)%nat with 25%nat.
  change (range 1 25) with (seq 1 24).
  destruct (@dbh_loop_ret m N p W 24 1 (N - x_off p) (N - o_off p)
              (binom (24 + Z.to_nat (N - x_off p)) 25) (binom (24 + Z.to_nat (N - o_off p)) 25))
    as (a & b & E); try lia.
  - change (26 - 1)%nat with 25%nat. lia.
  - change (26 - 1)%nat with 25%nat. lia.
  - rewrite E, bind_ret. rewrite mcomb_ret by (try lia; exact B). rewrite bind_ret. reflexivity.
Qed.

Lemma cidx_row rs : forall c, cidx c rs =
  fold_right Z.add 0 (map (fun cr => nth (fst cr - 1) (row (fst cr - 2 + snd cr)) 0)
    (combine (map (fun k => c - k)%nat (seq 0 (length rs))) rs)).
Proof.
  induction rs as [|r rs IH]; intros c; simpl; auto. rewrite row_binom, Nat.sub_0_r. f_equal.
  rewrite IH. rewrite <- seq_shift, map_map. do 2 f_equal. f_equal. apply map_ext. intros; lia.
Qed.
