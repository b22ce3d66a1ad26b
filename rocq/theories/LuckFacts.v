(** C87: finite random walks. *)
From Verif Require Import SpecLuck.
From Coq Require Import Lqa Qround.
Unset Implicit Arguments.
Open Scope Q_scope.

(** ** Averages *)
Notation sumQ := (fold_right Qplus 0).
Definition lenQ {A} (l : list A) : Q := inject_Z (Z.of_nat (length l)).
Lemma lenQ_cons {A} (a : A) l : lenQ (a :: l) == 1 + lenQ l.
Proof. unfold lenQ. cbn [length]. rewrite Nat2Z.inj_succ, <- Z.add_1_l, inject_Z_plus. reflexivity. Qed.
Lemma lenQ_pos {A} (l : list A) : 0 <= lenQ l.
Proof. unfold lenQ. change 0 with (inject_Z 0). rewrite <- Zle_Qle. lia. Qed.
Lemma lenQ_map {A B} (f : A -> B) l : lenQ (map f l) = lenQ l.
Proof. unfold lenQ. rewrite map_length. reflexivity. Qed.
Lemma avg_eq {A} (f : A -> Q) l : l <> [] -> avg (map f l) = sumQ (map f l) / lenQ l.
Proof. destruct l; [congruence|]. intros _. unfold avg, lenQ. rewrite <- (map_length f). reflexivity. Qed.
Lemma avg_iff {A} (f : A -> Q) l : l <> [] -> avg (map f l) * lenQ l == sumQ (map f l) /\ 0 < lenQ l.
Proof.
  intros N. assert (0 < lenQ l). { destruct l; [congruence|]. rewrite lenQ_cons. pose proof (lenQ_pos l). lra. }
  split; auto. rewrite avg_eq by auto. field. lra.
Qed.

Lemma sum_le {A} (f g : A -> Q) l : (forall x, In x l -> f x <= g x) -> sumQ (map f l) <= sumQ (map g l).
Proof.
  induction l as [|a l IH]; intros H; cbn; [lra|]. pose proof (H a (or_introl eq_refl)).
  assert (sumQ (map f l) <= sumQ (map g l)) by (apply IH; intros; apply H; right; auto). lra.
Qed.
Lemma sum_const {A} c (l : list A) : sumQ (map (fun _ => c) l) == c * lenQ l.
Proof. induction l as [|a l IH]; cbn [map fold_right]; [change (lenQ (@nil A)) with 0; ring|]. rewrite lenQ_cons, IH. lra. Qed.
Lemma sum_scale {A} c (f : A -> Q) l : sumQ (map (fun x => c * f x) l) == c * sumQ (map f l).
Proof. induction l as [|a l IH]; cbn; [lra|]. rewrite IH. lra. Qed.

Lemma avg_le {A} (f g : A -> Q) l : l <> [] -> (forall x, In x l -> f x <= g x) -> avg (map f l) <= avg (map g l).
Proof.
  intros N H. destruct (avg_iff f l N) as [E P], (avg_iff g l N) as [E' _]. pose proof (sum_le f g l H).
  apply (Qmult_le_r _ _ (lenQ l)); lra.
Qed.
Lemma avg_const {A} c (l : list A) : l <> [] -> avg (map (fun _ => c) l) == c.
Proof.
  intros N. destruct (avg_iff (fun _ => c) l N) as [E P]. rewrite sum_const in E. apply (Qmult_inj_r _ _ (lenQ l)); lra.
Qed.
Lemma avg_scale {A} c (f : A -> Q) l : l <> [] -> avg (map (fun x => c * f x) l) == c * avg (map f l).
Proof.
  intros N. destruct (avg_iff (fun x => c * f x) l N) as [E P], (avg_iff f l N) as [E' _]. rewrite sum_scale, <- E' in E.
  apply (Qmult_inj_r _ _ (lenQ l)); lra.
Qed.
Lemma avg_between {A} (f : A -> Q) lo hi l : l <> [] -> (forall x, In x l -> lo <= f x <= hi) -> lo <= avg (map f l) <= hi.
Proof.
  intros N H. split.
  - rewrite <- (avg_const lo l) at 1 by auto. apply avg_le; auto. intros; apply H; auto.
  - rewrite <- (avg_const hi l) by auto. apply avg_le; auto. intros; apply H; auto.
Qed.
Lemma sum_lt {A} (f g : A -> Q) l x : (forall x, In x l -> f x <= g x) -> In x l -> f x < g x -> sumQ (map f l) < sumQ (map g l).
Proof.
  induction l as [|a l IH]; intros H [] L; cbn.
  - subst. assert (sumQ (map f l) <= sumQ (map g l)) by (apply sum_le; intros; apply H; right; auto). lra.
  - assert (sumQ (map f l) < sumQ (map g l)) by (apply IH; auto; intros; apply H; right; auto).
    pose proof (H a (or_introl eq_refl)). lra.
Qed.
Lemma avg_lt {A} (f g : A -> Q) l x : (forall x, In x l -> f x <= g x) -> In x l -> f x < g x -> avg (map f l) < avg (map g l).
Proof.
  intros H I L. assert (N : l <> []) by (destruct l; [destruct I|discriminate]).
  destruct (avg_iff f l N) as [E P], (avg_iff g l N) as [E' _]. pose proof (sum_lt f g l x H I L).
  apply (Qmult_lt_r _ _ (lenQ l)); lra.
Qed.
Lemma avg_lt1 {A} (f : A -> Q) l x : (forall x, In x l -> f x <= 1) -> In x l -> f x < 1 -> avg (map f l) < 1.
Proof.
  intros H I L. assert (N : l <> []) by (destruct l; [destruct I|discriminate]).
  rewrite <- (avg_const 1 l) by auto. apply (avg_lt _ _ l x); auto.
Qed.
Lemma avg_lt1_inv {A} (f : A -> Q) l : l <> [] -> avg (map f l) < 1 -> exists x, In x l /\ f x < 1.
Proof.
  intros N H. assert (D : (exists x, In x l /\ f x < 1) \/ forall x, In x l -> 1 <= f x).
  { clear. induction l as [|a l IH]; [right; intros x []|]. destruct (Qlt_le_dec (f a) 1).
    - left. exists a. split; [left|]; auto.
    - destruct IH as [(x & I & L)|IH]; [left; exists x; split; [right|]; auto|right; intros x [<-|I]; auto]. }
  destruct D as [D|D]; auto. exfalso. assert (1 <= avg (map f l)); [|lra].
  rewrite <- (avg_const 1 l) by auto. apply avg_le; auto.
Qed.
Lemma sum_one {A} (f : A -> Q) l x : (forall x, In x l -> 0 <= f x) -> In x l -> f x <= sumQ (map f l).
Proof.
  induction l as [|a l IH]; intros H [] ; cbn.
  - subst. assert (sumQ (map (fun _ => 0) l) <= sumQ (map f l)) by (apply sum_le; intros; apply H; right; auto).
    rewrite sum_const in H0. lra.
  - assert (f x <= sumQ (map f l)) by (apply IH; auto; intros; apply H; right; auto).
    pose proof (H a (or_introl eq_refl)). lra.
Qed.
Lemma avg_one {A} (f : A -> Q) l x : (forall x, In x l -> 0 <= f x) -> In x l -> / lenQ l * f x <= avg (map f l).
Proof.
  intros H I. assert (N : l <> []) by (destruct l; [destruct I|discriminate]).
  destruct (avg_iff f l N) as [E P]. pose proof (sum_one f l x H I). apply (Qmult_le_r _ _ (lenQ l)); auto.
  setoid_replace (/ lenQ l * f x * lenQ l) with (f x) by (field; lra). lra.
Qed.

(** ** Powers *)
Fixpoint pw (c : Q) (n : nat) : Q := match n with O => 1 | S n => c * pw c n end.
Lemma pw_ge0 c n : 0 <= c -> 0 <= pw c n.
Proof. intros. induction n; cbn; [lra|]. apply Qmult_le_0_compat; auto. Qed.
Lemma pw_bern x n : 0 <= x <= 1 -> pw (1 - x) n * (1 + inject_Z (Z.of_nat n) * x) <= 1.
Proof.
  intros X. induction n as [|n IH]; [change (inject_Z (Z.of_nat 0)) with 0; cbn [pw]; lra|]. rewrite Nat2Z.inj_succ, <- Z.add_1_l, inject_Z_plus. cbn [pw].
  assert (P : 0 <= pw (1 - x) n) by (apply pw_ge0; lra).
  set (z := inject_Z (Z.of_nat n)) in *.
  assert (Z0 : 0 <= z). { unfold z. change 0 with (inject_Z 0). rewrite <- Zle_Qle. lia. }
  change (inject_Z 1) with 1.
  setoid_replace ((1 - x) * pw (1 - x) n * (1 + (1 + z) * x))
    with (pw (1 - x) n * (1 + z * x) - pw (1 - x) n * ((1 + z) * (x * x))) by ring.
  assert (0 <= pw (1 - x) n * ((1 + z) * (x * x))); [|lra].
  apply Qmult_le_0_compat; auto. apply Qmult_le_0_compat; [lra|]. apply Qmult_le_0_compat; lra.
Qed.
Lemma pw_small c eps : 0 <= c < 1 -> 0 < eps -> exists n, pw c n < eps.
Proof.
  intros C E. set (x := 1 - c).
  (* choose n with n * x * eps > 1 *)
  assert (P : 0 < x * eps) by (apply Qmult_lt_0_compat; unfold x; lra).
  set (n := Z.to_nat (Qceiling (/ (x * eps)) )). exists n.
  assert (Nn : / (x * eps) <= inject_Z (Z.of_nat n)).
  { unfold n. pose proof (Qle_ceiling (/ (x * eps))) as Q1. apply Qle_trans with (1 := Q1).
    rewrite <- Zle_Qle. lia. }
  pose proof (pw_bern x n ltac:(unfold x; lra)) as B. set (z := inject_Z (Z.of_nat n)) in *.
  assert (X1 : 1 <= z * (x * eps)).
  { apply (Qmult_le_r _ _ (x * eps)) in Nn; auto. rewrite Qmult_comm, Qmult_inv_r in Nn by lra. exact Nn. }
  assert (Ec : pw (1 - x) n == pw c n). { unfold x. clear. induction n; cbn; [reflexivity|]. rewrite IHn. ring. }
  rewrite Ec in B. assert (P0 : 0 <= pw c n) by (apply pw_ge0; lra).
  destruct (Qlt_le_dec (pw c n) eps) as [|L]; auto. exfalso.
  (* pw * (1 + z x) >= eps * (1 + z x) >= eps + 1 *)
  assert (Zx : 0 <= z * x). { apply Qmult_le_0_compat; [|unfold x; lra]. unfold z. change 0 with (inject_Z 0). rewrite <- Zle_Qle. lia. }
  assert (eps * (1 + z * x) <= pw c n * (1 + z * x)) by (apply Qmult_le_compat_r; lra).
  assert (z * (x * eps) == eps * (z * x)) by ring. lra.
Qed.

(** ** Walks on a finite set *)
Section Walk.
Variable V : Type.
Variable over : V -> bool.
Variable steps : V -> list (list V).
Variable Inv : V -> Prop.
Variable L : list V.
Hypothesis fin : forall v, Inv v -> In v L.
Hypothesis ne : forall v, Inv v -> over v = false -> steps v <> [] /\ forall l, In l (steps v) -> l <> [].
Hypothesis closed : forall v l w, Inv v -> over v = false -> In l (steps v) -> In w l -> Inv w.

Fixpoint u (n : nat) (v : V) : Q :=
  if over v then 0 else match n with O => 1 | S n => avg (map (fun l => avg (map (u n) l)) (steps v)) end.
(** [w] is reached from [v]. *)
Inductive reach : nat -> V -> V -> Prop :=
| reach_0 v : reach 0 v v
| reach_S n v l w x : over v = false -> In l (steps v) -> In w l -> reach n w x -> reach (S n) v x.

Lemma u_over n v : over v = true -> u n v = 0.
Proof. intros H. destruct n; cbn; rewrite H; reflexivity. Qed.
Lemma u_S n v : over v = false -> u (S n) v = avg (map (fun l => avg (map (u n) l)) (steps v)).
Proof. intros H. cbn. rewrite H. reflexivity. Qed.
Lemma u_0 v : over v = false -> u 0 v = 1.
Proof. intros H. cbn. rewrite H. reflexivity. Qed.
Lemma u_bounds n : forall v, Inv v -> 0 <= u n v <= 1.
Proof.
  induction n as [|n IH]; intros v I; (destruct (over v) eqn:O; [rewrite u_over by auto; lra|]).
  - rewrite u_0 by auto. lra.
  - rewrite u_S by auto. destruct (ne v I O) as [N Nl]. apply avg_between; auto. intros l Il.
    apply avg_between; auto. intros w Iw. apply IH. eapply closed; eauto.
Qed.
Lemma u_dec n : forall v, Inv v -> u (S n) v <= u n v.
Proof.
  induction n as [|n IH]; intros v I; (destruct (over v) eqn:O; [rewrite !u_over by auto; lra|]).
  - rewrite (u_0 v) by auto. apply u_bounds; auto.
  - rewrite (u_S (S n)), (u_S n) by auto. destruct (ne v I O) as [N Nl]. apply avg_le; auto. intros l Il.
    apply avg_le; auto. intros w Iw. apply IH. eapply closed; eauto.
Qed.
Lemma u_mono n k v : Inv v -> (n <= k)%nat -> u k v <= u n v.
Proof. intros I H. induction H; [lra|]. pose proof (u_dec m v I). lra. Qed.

(** A finishing line. *)
Lemma u_reach n : forall v w, Inv v -> reach n v w -> over w = true -> u n v < 1.
Proof.
  induction n as [|n IH]; intros v w I R O; inversion R; subst.
  - rewrite u_over by auto. lra.
  - rewrite u_S by auto. destruct (ne v I H0) as [N Nl]. apply (avg_lt1 _ _ l); auto.
    + intros l' Il'. apply (avg_between _ 0 1); auto. intros x Ix. apply u_bounds. eapply closed; eauto.
    + apply (avg_lt1 _ _ w0); auto.
      * intros x Ix. apply u_bounds. eapply closed; eauto.
      * apply (IH _ w); auto. eapply closed; eauto.
Qed.
Lemma u_next n v : Inv v -> over v = false -> u (S n) v < 1 -> exists l w, In l (steps v) /\ In w l /\ u n w < 1.
Proof.
  intros I O H. rewrite u_S in H by auto. destruct (ne v I O) as [N Nl].
  apply avg_lt1_inv in H; auto. destruct H as (l & Il & H). apply avg_lt1_inv in H; auto.
  destruct H as (w & Iw & H). exists l, w. auto.
Qed.
Lemma u_finish n : forall v, Inv v -> u n v < 1 -> exists k w, reach k v w /\ over w = true.
Proof.
  induction n as [|n IH]; intros v I H; (destruct (over v) eqn:O; [exists 0%nat, v; split; [constructor|auto]|]).
  - rewrite u_0 in H by auto. lra.
  - destruct (u_next n v I O H) as (l & w & Il & Iw & Hw). destruct (IH w) as (k & x & R & Ox); auto.
    { eapply closed; eauto. } exists (S k), x. split; auto. econstructor; eauto.
Qed.

(** The set of positions which can be finished within n turns becomes constant. *)
Definition lt1 (q : Q) : bool := if Qlt_le_dec q 1 then true else false.
Lemma lt1_iff q : lt1 q = true <-> q < 1.
Proof. unfold lt1. destruct (Qlt_le_dec q 1); split; auto; intros; [discriminate|lra]. Qed.
Definition soon (n : nat) (v : V) : bool := existsb (fun i => lt1 (u i v)) (seq 0 (S n)).
Lemma soon_iff n v : Inv v -> (soon n v = true <-> u n v < 1).
Proof.
  intros I. unfold soon. rewrite existsb_exists. split.
  - intros (i & Ii & H). apply in_seq in Ii. apply lt1_iff in H. pose proof (u_mono i n v I ltac:(lia)). lra.
  - intros H. exists n. split; [apply in_seq; lia|apply lt1_iff; auto].
Qed.
Lemma soon_S n v : soon n v = true -> soon (S n) v = true.
Proof.
  unfold soon. rewrite !existsb_exists. intros (i & Ii & H). exists i. split; auto. apply in_seq in Ii. apply in_seq. lia.
Qed.
Definition count (n : nat) : nat := length (filter (soon n) L).
Lemma filter_short {A} (f : A -> bool) l : (length (filter f l) <= length l)%nat.
Proof. induction l as [|a l IH]; cbn; [lia|]. destruct (f a); cbn; lia. Qed.
Lemma filter_le {A} (f g : A -> bool) l : (forall x, f x = true -> g x = true) ->
  (length (filter f l) <= length (filter g l))%nat /\
  (length (filter f l) = length (filter g l) -> forall x, In x l -> g x = true -> f x = true).
Proof.
  intros H. induction l as [|a l [IH1 IH2]]; cbn; [split; [lia|intros _ x []]|].
  destruct (f a) eqn:Fa; [rewrite (H a Fa); cbn; split; [lia|intros E x [<-|I] G; auto]|].
  destruct (g a) eqn:Ga; cbn; split; try lia; intros E x [<-|I] G; auto; congruence.
Qed.
Lemma count_chain k : (exists n, (n < k)%nat /\ count n = count (S n)) \/ (k <= count k)%nat.
Proof.
  induction k as [|k [(n & Hn & E)|IH]]; [right; lia|left; exists n; split; auto; lia|].
  destruct (filter_le (soon k) (soon (S k)) L (fun x => soon_S k x)) as [H _]. fold (count k) in H. fold (count (S k)) in H.
  destruct (Nat.eq_dec (count k) (count (S k))) as [E|E]; [left; exists k; auto|right; lia].
Qed.
Lemma stable : exists B, forall n v, Inv v -> u n v < 1 -> u B v < 1.
Proof.
  destruct (count_chain (S (length L))) as [(B & _ & E)|H].
  - exists B. assert (K : forall v, Inv v -> u (S B) v < 1 -> u B v < 1).
    { intros v I H. apply soon_iff in H; auto. apply soon_iff; auto.
      destruct (filter_le (soon B) (soon (S B)) L (fun x => soon_S B x)) as [_ F]. apply (F E); auto. }
    assert (J : forall j v, Inv v -> u (j + B) v < 1 -> u B v < 1).
    { induction j as [|j IH]; intros v I H; auto. destruct (over v) eqn:O; [rewrite u_over by auto; lra|].
      cbn [Nat.add] in H. destruct (u_next _ v I O H) as (l & w & Il & Iw & Hw). apply K; auto.
      assert (Inv w) by (eapply closed; eauto). apply IH in Hw; auto. rewrite u_S by auto.
      destruct (ne v I O) as [N Nl]. apply (avg_lt1 _ _ l); auto.
      - intros l' Il'. apply (avg_between _ 0 1); auto. intros x Ix. apply u_bounds. exact (closed v l' x I O Il' Ix).
      - apply (avg_lt1 _ _ w); auto. intros x Ix. apply u_bounds. exact (closed v l x I O Il Ix). }
    intros n v I H. apply (J n); auto. apply Qle_lt_trans with (2 := H). apply u_mono; auto. lia.
  - exfalso. assert (forall k, (count k <= length L)%nat); [|specialize (H0 (S (length L))); lia].
    intros k. apply filter_short.
Qed.
(** The largest probability below one. *)
Lemma ceiling B : exists c, 0 <= c < 1 /\ forall v, Inv v -> u B v < 1 -> u B v <= c.
Proof.
  assert (H : exists c, 0 <= c < 1 /\ forall v, In v L -> u B v < 1 -> u B v <= c).
  { clear. induction L as [|a l (c & C & IH)]; [exists 0; split; [lra|intros v []]|].
    destruct (Qlt_le_dec (u B a) 1) as [H|H].
    - destruct (Qlt_le_dec (u B a) c).
      + exists c. split; [lra|]. intros v [<-|I] K; [lra|auto].
      + exists (u B a). split; [lra|]. intros v [<-|I] K; [lra|]. pose proof (IH v I K). lra.
    - exists c. split; [lra|]. intros v [<-|I] K; [lra|auto]. }
  destruct H as (c & C & H). exists c. split; auto.
Qed.

(** A part of the walk closed under steps from which everything can be finished. *)
Variable P : V -> Prop.
Hypothesis Pinv : forall v, P v -> Inv v.
Hypothesis Pstep : forall v l w, P v -> over v = false -> In l (steps v) -> In w l -> P w.
Hypothesis Pfin : forall v, P v -> exists n w, reach n v w /\ over w = true.
Lemma geometric : exists B c, 0 <= c < 1 /\ forall n v, P v -> u (n + B) v <= c * u n v.
Proof.
  destruct stable as (B & HB). destruct (ceiling B) as (c & C & Hc). exists B, c. split; auto.
  induction n as [|n IH]; intros v Pv; (destruct (over v) eqn:O; [rewrite !u_over by auto; lra|]).
  - rewrite u_0 by auto. cbn [Nat.add]. assert (u B v <= c); [|lra]. apply Hc; auto.
    destruct (Pfin v Pv) as (k & w & R & Ow). apply (HB k); auto. apply (u_reach k v w); auto.
  - cbn [Nat.add]. rewrite !u_S by auto. destruct (ne v (Pinv v Pv) O) as [N Nl].
    rewrite <- avg_scale by auto. apply avg_le; auto. intros l Il. rewrite <- avg_scale by auto. apply avg_le; auto.
    intros w Iw. apply IH. eapply Pstep; eauto.
Qed.
Lemma geometric_pw : exists B c, 0 <= c < 1 /\ forall k v, P v -> u (k * B) v <= pw c k.
Proof.
  destruct geometric as (B & c & C & H). exists B, c. split; auto. induction k as [|k IH]; intros v Pv; cbn [Nat.mul pw].
  - apply u_bounds; auto.
  - rewrite Nat.add_comm. apply Qle_trans with (1 := H _ _ Pv). rewrite !(Qmult_comm c). apply Qmult_le_compat_r; [auto|lra].
Qed.
Lemma vanishes eps : 0 < eps -> exists n, forall k v, (n <= k)%nat -> P v -> u k v < eps.
Proof.
  intros E. destruct geometric_pw as (B & c & C & H). destruct (pw_small c eps C E) as (n & Hn). exists (n * B)%nat.
  intros k v K Pv. pose proof (u_mono (n * B) k v (Pinv v Pv) K). pose proof (H n v Pv). lra.
Qed.
(** Sums. *)
Definition total (n : nat) (v : V) : Q := sumQ (map (fun i => u i v) (seq 0 n)).
Lemma sum_app l l' : sumQ (l ++ l') == sumQ l + sumQ l'.
Proof. induction l; cbn; [lra|]. rewrite IHl. lra. Qed.
Lemma seq_shift_map b n : seq b n = map (fun i => (i + b)%nat) (seq 0 n).
Proof.
  revert b. induction n as [|n IH]; intros b; [reflexivity|]. cbn [seq map]. f_equal. rewrite (IH (S b)), (IH 1%nat), map_map.
  apply map_ext. intros. lia.
Qed.
Lemma bounded_total : exists M, forall n v, P v -> total n v <= M.
Proof.
  destruct geometric as (B & c & C & H). exists (inject_Z (Z.of_nat B) / (1 - c)). intros n v Pv.
  assert (T : total n v <= inject_Z (Z.of_nat B) + c * total n v).
  { assert (T1 : total n v <= total (B + n) v).
    { unfold total. rewrite (Nat.add_comm B n), seq_app, map_app, sum_app.
      assert (sumQ (map (fun _ => 0) (seq (0 + n) B)) <= sumQ (map (fun i => u i v) (seq (0 + n) B))).
      { apply sum_le. intros i _. apply u_bounds; auto. } rewrite sum_const in H0. lra. }
    assert (T2 : total (B + n) v == total B v + sumQ (map (fun i => u (i + B) v) (seq 0 n))).
    { unfold total. rewrite seq_app, map_app, sum_app. cbn [Nat.add]. rewrite (seq_shift_map B), map_map. reflexivity. }
    assert (T3 : total B v <= inject_Z (Z.of_nat B)).
    { unfold total. assert (sumQ (map (fun i => u i v) (seq 0 B)) <= sumQ (map (fun _ => 1) (seq 0 B))).
      { apply sum_le. intros i _. apply u_bounds; auto. } rewrite sum_const in H0. unfold lenQ in H0. rewrite seq_length in H0. lra. }
    assert (T4 : sumQ (map (fun i => u (i + B) v) (seq 0 n)) <= c * total n v).
    { unfold total. rewrite <- sum_scale. apply sum_le. intros i _. auto. }
    lra. }
  assert (X : 0 < 1 - c) by lra. apply (Qmult_le_r _ _ (1 - c)); auto.
  setoid_replace (inject_Z (Z.of_nat B) / (1 - c) * (1 - c)) with (inject_Z (Z.of_nat B)) by (field; lra). lra.
Qed.

End Walk.

(** The other direction: what is reached with positive probability and never finished. *)
Section Back.
Variable V : Type.
Variable over : V -> bool.
Variable steps : V -> list (list V).
Variable Inv : V -> Prop.
Hypothesis ne : forall v, Inv v -> over v = false -> steps v <> [] /\ forall l, In l (steps v) -> l <> [].
Hypothesis closed : forall v l w, Inv v -> over v = false -> In l (steps v) -> In w l -> Inv w.
Lemma reach_lower n : forall v w, Inv v -> reach V over steps n v w ->
  exists delta, 0 < delta /\ forall k, delta * u V over steps k w <= u V over steps (n + k) v.
Proof.
  induction n as [|n IH]; intros v w I R; inversion R; subst.
  - exists 1. split; [lra|]. intros k. cbn [Nat.add]. lra.
  - assert (Iw : Inv w0) by (eapply closed; eauto). destruct (IH _ _ Iw H3) as (e & E & H).
    destruct (ne v I H0) as [N Nl]. assert (Ll : 0 < lenQ l) by (apply (avg_iff (fun _ => 0) l); auto).
    assert (Ls : 0 < lenQ (steps v)) by (apply (avg_iff (fun _ => 0) (steps v)); auto).
    assert (Jl : 0 < / lenQ l) by (apply Qinv_lt_0_compat; auto). assert (Js : 0 < / lenQ (steps v)) by (apply Qinv_lt_0_compat; auto).
    exists (/ lenQ (steps v) * (/ lenQ l * e)). split; [apply Qmult_lt_0_compat; auto; apply Qmult_lt_0_compat; auto|].
    intros k. cbn [Nat.add]. rewrite u_S by auto.
    pose proof (u_bounds V over steps Inv ne closed) as UB.
    pose proof (avg_one (fun l => avg (map (u V over steps (n + k)) l)) (steps v) l) as A1. cbv beta in A1.
    assert (A2 : / lenQ l * u V over steps (n + k) w0 <= avg (map (u V over steps (n + k)) l)).
    { apply avg_one; auto. intros x Ix. apply UB. exact (closed v l x I H0 H1 Ix). }
    assert (A3 : / lenQ (steps v) * avg (map (u V over steps (n + k)) l) <= avg (map (fun l => avg (map (u V over steps (n + k)) l)) (steps v))).
    { apply A1; auto. intros l' Il'. apply (avg_between _ 0 1); auto. intros x Ix. apply UB. exact (closed v l' x I H0 Il' Ix). }
    apply Qle_trans with (2 := A3).
    setoid_replace (/ lenQ (steps v) * (/ lenQ l * e) * u V over steps k w)
      with (/ lenQ l * (e * u V over steps k w) * / lenQ (steps v)) by ring.
    rewrite (Qmult_comm (/ lenQ (steps v)) (avg _)). apply Qmult_le_compat_r; [|lra].
    apply Qle_trans with (2 := A2). rewrite !(Qmult_comm (/ lenQ l)). apply Qmult_le_compat_r; [|lra]. apply H.
Qed.
End Back.
