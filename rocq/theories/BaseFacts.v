(** Lemmas about the machine layer. *)
From Verif Require Export Base SpecRules.
Open Scope Z_scope.

#[global] Arguments Nat.eqb : simpl never.
#[global] Arguments Nat.ltb : simpl never.
#[global] Arguments Nat.leb : simpl never.
#[global] Arguments Nat.sub : simpl never.
#[global] Arguments Z.add : simpl never.
#[global] Arguments Z.sub : simpl never.
#[global] Arguments Z.mul : simpl never.
#[global] Arguments Z.opp : simpl never.
#[global] Arguments Z.eqb : simpl never.
#[global] Arguments Z.ltb : simpl never.
#[global] Arguments Z.leb : simpl never.
#[global] Arguments Z.max : simpl never.
#[global] Arguments Z.min : simpl never.
#[global] Arguments Z.of_nat : simpl never.
#[global] Arguments Z.to_nat : simpl never.

Lemma index_ret {A} (l : list A) i d : (i < length l)%nat -> index l i = Ret (nth i l d).
Proof. intros H. unfold index. rewrite (nth_error_nth' l d H). reflexivity. Qed.

Lemma upd_length {A} (l : list A) i v : length (upd l i v) = length l.
Proof. revert i; induction l as [|a l IH]; intros [|i]; simpl; auto. Qed.

Lemma assign_ret {A} (l : list A) i v : (i < length l)%nat -> assign l i v = Ret (upd l i v).
Proof. intros H. unfold assign. apply Nat.ltb_lt in H. rewrite H. reflexivity. Qed.

Lemma nth_upd {A} (l : list A) i j v d :
  (i < length l)%nat -> nth j (upd l i v) d = if (j =? i)%nat then v else nth j l d.
Proof.
  revert i j; induction l as [|a l IH]; intros i j H; simpl in H; [lia|].
  destruct i as [|i], j as [|j]; simpl; auto.
  change (S j =? S i)%nat with (j =? i)%nat. apply IH. lia.
Qed.

Lemma usub_ret m a b : (b <= a)%nat -> usub m a b = Ret (a - b)%nat.
Proof. intros H. unfold usub. apply Nat.leb_le in H. rewrite H. reflexivity. Qed.

Lemma i8_ret m z : -128 <= z <= 127 -> i8 m z = Ret z.
Proof.
  intros H. unfold i8, in_i8.
  destruct (Z.leb_spec (-128) z), (Z.leb_spec z 127); simpl; auto; lia.
Qed.
Lemma u8_ret m z : 0 <= z <= 255 -> u8 m z = Ret z.
Proof.
  intros H. unfold u8, in_u8.
  destruct (Z.leb_spec 0 z), (Z.leb_spec z 255); simpl; auto; lia.
Qed.
Lemma u64_ret m z : 0 <= z < 2^64 -> u64 m z = Ret z.
Proof.
  intros H. unfold u64, in_u64.
  destruct (Z.leb_spec 0 z), (Z.ltb_spec z (2^64)); simpl; auto; lia.
Qed.
Lemma as_u8_id z : 0 <= z <= 255 -> as_u8 z = z.
Proof. intros H. unfold as_u8, wrap_u8. apply Z.mod_small. lia. Qed.
Lemma as_i8_id z : -128 <= z <= 127 -> as_i8 z = z.
Proof. intros H. unfold as_i8, wrap_i8. rewrite Z.mod_small; lia. Qed.

Lemma debug_assert_true m : debug_assert m true = Ret tt.
Proof. destruct m; reflexivity. Qed.
Lemma debug_assert_ret m b : b = true -> debug_assert m b = Ret tt.
Proof. intros ->. apply debug_assert_true. Qed.

Lemma mflat_map_ret {A B} (f : A -> res (list B)) (g : A -> list B) l :
  (forall a, In a l -> f a = Ret (g a)) -> mflat_map f l = Ret (flat_map g l).
Proof.
  induction l as [|a l IH]; intros H; simpl; auto.
  rewrite H by (left; auto). simpl. rewrite IH by (intros; apply H; right; auto).
  reflexivity.
Qed.

Lemma mmap_ret {A B} (f : A -> res B) (g : A -> B) l :
  (forall a, In a l -> f a = Ret (g a)) -> mmap f l = Ret (map g l).
Proof.
  induction l as [|a l IH]; intros H; simpl; auto.
  rewrite H by (left; auto). simpl. rewrite IH by (intros; apply H; right; auto).
  reflexivity.
Qed.

Lemma in_range i a b : In i (range a b) <-> (a <= i < b)%nat.
Proof. unfold range. rewrite in_seq. lia. Qed.

Lemma bind_ret {A B} (a : A) (f : A -> res B) : bind (Ret a) f = f a.
Proof. reflexivity. Qed.

(** Bind inversion. *)
Lemma bind_inv {A B} (r : res A) (f : A -> res B) b :
  bind r f = Ret b -> exists a, r = Ret a /\ f a = Ret b.
Proof. destruct r; simpl; intros H; [eauto|discriminate]. Qed.

(** Last index satisfying a predicate. *)
Lemma rposition_Some {A} (f : A -> bool) l i d :
  rposition_of f l = Some i ->
  (i < length l)%nat /\ f (nth i l d) = true /\
  forall j, (i < j < length l)%nat -> f (nth j l d) = false.
Proof.
  revert i; induction l as [|a l IH]; simpl; intros i H; [discriminate|].
  destruct (rposition_of f l) as [k|] eqn:E.
  - inversion H; subst. destruct (IH k eq_refl) as (H1 & H2 & H3).
    repeat split; auto; try lia. intros [|j] Hj; [lia|]. apply H3. lia.
  - destruct (f a) eqn:Fa; [|discriminate]. inversion H; subst.
    repeat split; auto; try lia. intros [|j] Hj; [lia|].
    clear - E Hj. assert (Hj' : (j < length l)%nat) by lia. clear Hj. simpl.
    revert j Hj' E. induction l as [|b l IH]; simpl; intros j Hj E; [lia|].
    destruct (rposition_of f l) eqn:E'; [discriminate|].
    destruct (f b) eqn:Fb; [discriminate|]. destruct j; auto. apply IH; auto; lia.
Qed.

Lemma rposition_None {A} (f : A -> bool) l d :
  rposition_of f l = None -> forall j, (j < length l)%nat -> f (nth j l d) = false.
Proof.
  induction l as [|b l IH]; simpl; intros E j Hj; [lia|].
  destruct (rposition_of f l) eqn:E'; [discriminate|].
  destruct (f b) eqn:Fb; [discriminate|]. destruct j; auto. apply IH; auto; lia.
Qed.

Lemma position_Some {A} (f : A -> bool) l i d :
  position_of f l = Some i ->
  (i < length l)%nat /\ f (nth i l d) = true /\
  forall j, (j < i)%nat -> f (nth j l d) = false.
Proof.
  revert i; induction l as [|a l IH]; simpl; intros i H; [discriminate|].
  destruct (f a) eqn:Fa.
  - inversion H; subst. repeat split; auto; try lia.
  - destruct (position_of f l) as [k|] eqn:E; simpl in H; [|discriminate].
    inversion H; subst. destruct (IH k eq_refl) as (H1 & H2 & H3).
    repeat split; auto; try lia. intros [|j] Hj; auto. apply H3. lia.
Qed.

Lemma position_None {A} (f : A -> bool) l d :
  position_of f l = None -> forall j, (j < length l)%nat -> f (nth j l d) = false.
Proof.
  induction l as [|b l IH]; simpl; intros E j Hj; [lia|].
  destruct (f b) eqn:Fb; [discriminate|].
  destruct (position_of f l) eqn:E'; simpl in E; [discriminate|].
  destruct j; auto. apply IH; auto; lia.
Qed.

(** Slices. *)
Lemma nth_skipn {A} (l : list A) k i d : nth i (skipn k l) d = nth (k + i) l d.
Proof.
  revert l; induction k as [|k IH]; intros l; simpl; auto.
  destruct l; simpl; [destruct i; auto|]. apply IH.
Qed.
Lemma nth_firstn {A} (l : list A) k i d : (i < k)%nat -> nth i (firstn k l) d = nth i l d.
Proof.
  revert l i; induction k as [|k IH]; intros l i H; [lia|].
  destruct l; simpl; auto. destruct i; auto. apply IH. lia.
Qed.
Lemma slice_length {A} (l : list A) lo hi :
  (hi <= length l)%nat -> length (slice l lo hi) = (hi - lo)%nat.
Proof. intros H. unfold slice. rewrite firstn_length, skipn_length. lia. Qed.
Lemma nth_slice {A} (l : list A) lo hi i d :
  (i < hi - lo)%nat -> nth i (slice l lo hi) d = nth (lo + i) l d.
Proof. intros H. unfold slice. rewrite nth_firstn by auto. apply nth_skipn. Qed.

Lemma existsb_slice {A} (f : A -> bool) l lo hi d :
  (hi <= length l)%nat ->
  existsb f (slice l lo hi) = true <-> exists i, (lo <= i < hi)%nat /\ f (nth i l d) = true.
Proof.
  intros Hl. rewrite existsb_exists. split.
  - intros (x & Hx & Hf). apply (In_nth _ _ d) in Hx. destruct Hx as (i & Hi & E).
    rewrite slice_length in Hi by auto. rewrite nth_slice in E by auto.
    exists (lo + i)%nat. split; [lia|]. rewrite E. auto.
  - intros (i & Hi & Hf). exists (nth i l d). split; auto.
    replace i with (lo + (i - lo))%nat at 1 by lia.
    rewrite <- (nth_slice l lo hi) by lia.
    apply nth_In. rewrite slice_length by auto. lia.
Qed.

Lemma existsb_slice_false {A} (f : A -> bool) l lo hi d :
  (hi <= length l)%nat ->
  existsb f (slice l lo hi) = false <-> forall i, (lo <= i < hi)%nat -> f (nth i l d) = false.
Proof.
  intros Hl. pose proof (existsb_slice f l lo d Hl) as H.
  destruct (existsb f (slice l lo hi)) eqn:E; split; intros H1; auto; try discriminate.
  - exfalso. destruct H as [H _]. destruct (H eq_refl) as (i & Hi & Hf).
    rewrite H1 in Hf; auto; discriminate.
  - intros i Hi. destruct (f (nth i l d)) eqn:F; auto. exfalso.
    destruct H as [_ H]. discriminate H. eauto.
Qed.

(** Sums. *)
Lemma sumZ_upd (f : Z -> Z) l i v d :
  (i < length l)%nat ->
  sumZ (map f (upd l i v)) = sumZ (map f l) - f (nth i l d) + f v.
Proof.
  revert i; induction l as [|a l IH]; intros [|i] H; simpl in *; try lia.
  rewrite IH by lia. lia.
Qed.

Lemma sumZ_app l1 l2 : sumZ (l1 ++ l2) = sumZ l1 + sumZ l2.
Proof. induction l1; simpl; lia. Qed.

Lemma sumZ_nonneg (f : Z -> Z) l : (forall v, 0 <= f v) -> 0 <= sumZ (map f l).
Proof. intros H; induction l as [|a l IH]; simpl; [lia|]. specialize (H a). lia. Qed.

Lemma sumZ_ge_nth (f : Z -> Z) l i d :
  (forall v, 0 <= f v) -> (i < length l)%nat -> f (nth i l d) <= sumZ (map f l).
Proof.
  intros H. revert i; induction l as [|a l IH]; intros [|i] Hi; simpl in *; try lia.
  - pose proof (sumZ_nonneg f l H). lia.
  - specialize (IH i). pose proof (H a). lia.
Qed.

Lemma sumZ_ge_nth2 (f : Z -> Z) l i j d :
  (forall v, 0 <= f v) -> (i < length l)%nat -> (j < length l)%nat -> i <> j ->
  f (nth i l d) + f (nth j l d) <= sumZ (map f l).
Proof.
  intros H. revert i j; induction l as [|a l IH]; intros [|i] [|j] Hi Hj Hij; simpl in *; try lia.
  - pose proof (sumZ_ge_nth f l d H (i:=j)). lia.
  - pose proof (sumZ_ge_nth f l d H (i:=i)). lia.
  - specialize (IH i j). pose proof (H a). lia.
Qed.

(** i8 sums of lists that do not overflow. *)
Lemma sum_i8_aux m l s :
  (forall v, In v l -> 0 <= v) -> 0 <= s -> s + sumZ l <= 127 ->
  mfold (fun s z => i8 m (s + z)) l s = Ret (s + sumZ l).
Proof.
  revert s; induction l as [|a l IH]; intros s Hv Hs Hb; simpl in *.
  - f_equal. lia.
  - assert (0 <= a) by (apply Hv; auto).
    assert (0 <= sumZ l).
    { assert (Hl : forall v, In v l -> 0 <= v) by auto. clear -Hl.
      induction l as [|b l IH]; simpl; [lia|]. pose proof (Hl b (or_introl eq_refl)).
      assert (0 <= sumZ l) by (apply IH; intros; apply Hl; right; auto). lia. }
    rewrite i8_ret by lia. simpl. rewrite IH; auto; try lia. f_equal; lia.
Qed.
Lemma sum_i8_ret m l :
  (forall v, In v l -> 0 <= v) -> sumZ l <= 127 -> sum_i8 m l = Ret (sumZ l).
Proof. intros. unfold sum_i8. rewrite sum_i8_aux; auto; lia. Qed.

Lemma sumZ_filter_pos l :
  sumZ (filter (fun v => 0 <? v) l) = sumZ (map (fun v => Z.max 0 v) l).
Proof.
  induction l as [|a l IH]; simpl; auto.
  destruct (Z.ltb_spec 0 a); simpl; rewrite IH; lia.
Qed.

(** Extensionality for positions. *)
Lemma nth_ext26 (l1 l2 : list Z) :
  length l1 = 26%nat -> length l2 = 26%nat ->
  (forall i, (i < 26)%nat -> nth i l1 0 = nth i l2 0) -> l1 = l2.
Proof. intros H1 H2 H. apply (nth_ext l1 l2 0 0); [congruence|]. rewrite H1. auto. Qed.

Lemma position_ext p q :
  turn p = turn q -> x_off p = x_off q -> o_off p = o_off q ->
  length (pips p) = 26%nat -> length (pips q) = 26%nat ->
  (forall i, (i < 26)%nat -> pt p i = pt q i) -> p = q.
Proof.
  destruct p, q; unfold pt; simpl; intros. subst. f_equal. apply nth_ext26; auto.
Qed.

Lemma upd_self {A} (l : list A) i d : upd l i (nth i l d) = l.
Proof. revert i; induction l as [|a l IH]; intros [|i]; simpl; auto. rewrite IH. reflexivity. Qed.
Lemma upd_upd {A} (l : list A) i a b : upd (upd l i a) i b = upd l i b.
Proof. revert i; induction l as [|c l IH]; intros [|i]; simpl; auto. rewrite IH. reflexivity. Qed.
Lemma nth_map_seq {A} (f : nat -> A) n i d : (i < n)%nat -> nth i (map f (seq 0 n)) d = f i.
Proof.
  intros H. rewrite (nth_indep _ d (f n)) by (rewrite map_length, seq_length; auto).
  rewrite map_nth, seq_nth by auto. reflexivity.
Qed.

