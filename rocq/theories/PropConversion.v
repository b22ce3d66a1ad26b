(** Property C51: positions from maps of checkers.  Read with SpecConversion.v, SpecRules.v. *)
From Coq Require Import Permutation.
From Verif Require Import SpecConversion TryFromFacts PropPosition Variants.
Open Scope Z_scope.

(** ** Proofs *)
Lemma given_in l i v : NoDup (map fst l) -> In (i, v) l -> given l i = v.
Proof.
  unfold given. induction l as [|(j, w) l IH]; cbn [map fst]; intros N I; [destruct I|]. inversion N as [|? ? N1 N2]; subst.
  cbn [filter fst]. destruct I as [E|I].
  - inversion E; subst. rewrite Nat.eqb_refl. cbn [map snd sumZ fold_right].
    assert (F : filter (fun e : nat * Z => Nat.eqb (fst e) i) l = []).
    { clear -N1. induction l as [|(j, u) l IH]; auto. cbn [map fst filter] in *. destruct (Nat.eqb_spec j i) as [->|Nj]; [exfalso; apply N1; left; auto|].
      apply IH. intros X. apply N1. right. auto. }
    rewrite F. cbn. lia.
  - destruct (Nat.eqb_spec j i) as [->|_]; [|apply IH; auto]. exfalso. apply N1. apply in_map_iff. exists (i, v). auto.
Qed.
Lemma given_out l i : ~ In i (map fst l) -> given l i = 0.
Proof.
  unfold given. induction l as [|(j, w) l IH]; cbn [map fst]; intros N; [reflexivity|]. cbn [filter fst].
  destruct (Nat.eqb_spec j i) as [->|_]; [exfalso; apply N; left; auto|]. apply IH. intros X. apply N. right. auto.
Qed.

Lemma fill_x l : NoDup (map fst l) -> forall ps r, length ps = 26%nat ->
  mfold (fun ps '(i, v) => assign ps i (as_i8 v)) l ps = Ret r <->
  Forall (fun e => (fst e < 26)%nat) l /\ length r = 26%nat /\
  (forall i v, In (i, v) l -> nth i r 0 = as_i8 v) /\ (forall i, ~ In i (map fst l) -> nth i r 0 = nth i ps 0).
Proof.
  induction l as [|(j, w) l IH]; intros N ps r L.
  - cbn [mfold]. split.
    + intros E. inversion E; subst. split; [constructor|]. split; auto. split; [intros ? ? []|auto].
    + intros (_ & Lr & _ & H). f_equal. apply (@nth_ext _ _ _ 0 0); [congruence|]. intros i _. symmetry. apply H. intros [].
  - cbn [map fst] in N. inversion N as [|? ? N1 N2]; subst. cbn [mfold]. split.
    + intros E. apply bind_inv in E. destruct E as (s & E1 & E2). unfold assign in E1. rewrite L in E1.
      destruct (Nat.ltb_spec j 26) as [Lj|Lj]; [|discriminate]. inversion E1; subst s.
      apply IH in E2; [|auto|rewrite upd_length; auto]. destruct E2 as (F & Lr & A & B).
      split; [constructor; auto|]. split; auto. split.
      * intros i v [X|X]; [inversion X; subst; rewrite B by auto; rewrite nth_upd by lia; rewrite Nat.eqb_refl; auto|auto].
      * intros i Ni. cbn [map fst] in Ni. rewrite B by (intros X; apply Ni; right; auto). rewrite nth_upd by lia.
        destruct (Nat.eqb_spec i j) as [->|_]; auto. exfalso. apply Ni. left. auto.
    + intros (F & Lr & A & B). inversion F as [|? ? Fj F']; subst. cbn [fst] in Fj. rewrite assign_ret by lia. rewrite bind_ret.
      apply IH; auto; [rewrite upd_length; auto|]. split; auto. split; auto. split; [intros; apply A; right; auto|].
      intros i Ni. rewrite nth_upd by lia. destruct (Nat.eqb_spec i j) as [->|Nj]; [apply A; left; auto|].
      apply B. intros [X|X]; [cbn in X; congruence|auto].
Qed.
Lemma nth_upd_other (l : list Z) i j v : j <> i -> nth j (upd l i v) 0 = nth j l 0.
Proof.
  intros N. destruct (Nat.lt_ge_cases i (length l)) as [L|L].
  - rewrite nth_upd by auto. destruct (Nat.eqb_spec j i); [congruence|auto].
  - f_equal. revert i L N. induction l as [|a l IH]; intros i L N; [reflexivity|]. destruct i as [|i]; cbn in *; [lia|]. f_equal. clear N.
    assert (H : forall l' k, (length l' <= k)%nat -> upd l' k v = l').
    { clear. induction l' as [|b l' IH]; intros k K; [reflexivity|]. destruct k as [|k]; cbn in *; [lia|]. f_equal. apply IH. lia. }
    apply H. lia.
Qed.
Lemma fill_o m l : NoDup (map fst l) -> forall ps r, length ps = 26%nat ->
  mfold (fun ps '(i, v) =>
          (match m with
           | Debug => w <- index ps i ;; debug_assert m (w =? 0)
           | Release => Ret tt
           end) ;;;
          n <- i8 m (- as_i8 v) ;;
          assign ps i n) l ps = Ret r <->
  Forall (fun e => (fst e < 26)%nat /\ (m = Debug -> nth (fst e) ps 0 = 0)) l /\ length r = 26%nat /\
  (forall i v, In (i, v) l -> i8 m (- as_i8 v) = Ret (nth i r 0)) /\ (forall i, ~ In i (map fst l) -> nth i r 0 = nth i ps 0).
Proof.
  induction l as [|(j, w) l IH]; intros N ps r L.
  - cbn [mfold]. split.
    + intros E. inversion E; subst. split; [constructor|]. split; auto. split; [intros ? ? []|auto].
    + intros (_ & Lr & _ & H). f_equal. apply (@nth_ext _ _ _ 0 0); [congruence|]. intros i _. symmetry. apply H. intros [].
  - cbn [map fst] in N. inversion N as [|? ? N1 N2]; subst. cbn [mfold].
    assert (X : forall n, n = 26%nat -> forall k, (k < n)%nat -> (match m with Debug => w0 <- index ps k ;; debug_assert m (w0 =? 0) | Release => Ret tt end = Ret tt <-> (m = Debug -> nth k ps 0 = 0))).
    { intros n -> k K. destruct m.
      - rewrite (@index_ret _ ps k 0) by lia. rewrite bind_ret. unfold debug_assert. destruct (Z.eqb_spec (nth k ps 0) 0) as [Z|Z].
        + tauto.
        + split; [discriminate|]. intros H. exfalso. apply Z, H. auto.
      - split; [discriminate|auto]. }
    assert (OthersFrom : forall q : Z, Forall (fun e : nat * Z => (fst e < 26)%nat /\ (m = Debug -> nth (fst e) (upd ps j q) 0 = 0)) l <->
                              Forall (fun e : nat * Z => (fst e < 26)%nat /\ (m = Debug -> nth (fst e) ps 0 = 0)) l).
    { intros q. rewrite !Forall_forall. split; intros H e I; destruct (H e I) as (A & B); split; auto; intros Em; specialize (B Em);
        rewrite nth_upd_other in *; auto; intros E; apply N1; rewrite <- E; apply in_map, I. }
    split.
    + intros E. apply bind_inv in E. destruct E as (s & E1 & E2). apply bind_inv in E1. destruct E1 as ([] & Ea & E1).
      apply bind_inv in E1. destruct E1 as (n & En & E1). unfold assign in E1. rewrite L in E1.
      destruct (Nat.ltb_spec j 26) as [Lj|Lj]; [|discriminate]. inversion E1; subst s. pose proof (proj1 (X 26%nat eq_refl j Lj) Ea) as Eb. clear Ea. rename Eb into Ea.
      apply IH in E2; [|auto|rewrite upd_length; auto]. destruct E2 as (F & Lr & A & B). apply OthersFrom in F.
      split; [constructor; [split; [exact Lj|exact Ea]|exact F]|]. split; [exact Lr|]. split.
      * intros i v [Y|Y]; [|auto]. inversion Y; subst. rewrite B by auto. rewrite nth_upd by lia. rewrite Nat.eqb_refl. auto.
      * intros i Ni. cbn [map fst] in Ni. rewrite B by (intros Y; apply Ni; right; auto). rewrite nth_upd by lia.
        destruct (Nat.eqb_spec i j) as [->|_]; auto. exfalso. apply Ni. left. auto.
    + intros (F & Lr & A & B). inversion F as [|? ? (Fj & Dj) F']; subst. cbn [fst] in Fj, Dj.
      apply (X 26%nat eq_refl j Fj) in Dj. rewrite Dj, bind_ret. rewrite (A j w) by (left; auto). rewrite bind_ret.
      rewrite assign_ret by lia. rewrite bind_ret. apply IH; auto; [rewrite upd_length; auto|]. split; [apply OthersFrom, F'|]. split; auto.
      split; [intros; apply A; right; auto|]. intros i Ni. rewrite nth_upd by lia. destruct (Nat.eqb_spec i j) as [->|Nj]; auto.
      apply B. intros [Y|Y]; [cbn in Y; congruence|auto].
Qed.

(** The result does not depend on the order in which the maps are iterated. *)
Theorem C51_order_irrelevant : forall m N x o x' o' p, map_entries x -> map_entries o ->
  Permutation x x' -> Permutation o o' -> from_hash_maps m N x o = Ret p -> from_hash_maps m N x' o' = Ret p.
Proof.
  intros m N x o x' o' p (Nx & _) (No & _) Px Po E. unfold from_hash_maps in *.
  assert (Nx' : NoDup (map fst x')) by (eapply Permutation_NoDup; [apply Permutation_map, Px|auto]).
  assert (No' : NoDup (map fst o')) by (eapply Permutation_NoDup; [apply Permutation_map, Po|auto]).
  assert (Kx : forall i, In i (map fst x) <-> In i (map fst x')).
  { intros i. split; apply Permutation_in; [apply Permutation_map, Px|apply Permutation_map, Permutation_sym, Px]. }
  assert (Ko : forall i, In i (map fst o) <-> In i (map fst o')).
  { intros i. split; apply Permutation_in; [apply Permutation_map, Po|apply Permutation_map, Permutation_sym, Po]. }
  apply bind_inv in E. destruct E as (ps & E1 & E). apply bind_inv in E. destruct E as (qs & E2 & E).
  apply (@fill_x _ Nx) in E1; [|reflexivity]. destruct E1 as (F & L & A & B).
  assert (E1' : mfold (fun ps '(i, v) => assign ps i (as_i8 v)) x' (repeat 0 26) = Ret ps).
  { apply (@fill_x _ Nx'); [reflexivity|]. split; [eapply Permutation_Forall; eauto|]. split; auto. split.
    - intros i v I. apply A. eapply Permutation_in; [apply Permutation_sym, Px|auto].
    - intros i I. apply B. rewrite Kx. auto. }
  rewrite E1', bind_ret. apply (@fill_o m _ No) in E2; [|auto]. destruct E2 as (F2 & L2 & A2 & B2).
  match goal with |- bind (mfold ?f o' ps) _ = _ => assert (E2' : mfold f o' ps = Ret qs) end.
  { apply (@fill_o m _ No'); auto. split; [eapply Permutation_Forall; eauto|]. split; auto. split.
    - intros i v I. apply A2. eapply Permutation_in; [apply Permutation_sym, Po|auto].
    - intros i I. apply B2. rewrite Ko. auto. }
  rewrite E2', bind_ret. exact E.
Qed.

Lemma as_i8_small v : 0 <= v <= 127 -> as_i8 v = v.
Proof. intros H. unfold as_i8, wrap_i8. rewrite Z.mod_small by lia. lia. Qed.
Lemma i8_neg m v : 0 <= v <= 127 -> i8 m (- v) = Ret (- v).
Proof. intros H. unfold i8, in_i8. rewrite (proj2 (Z.leb_le _ _)), (proj2 (Z.leb_le _ _)) by lia. reflexivity. Qed.
Lemma all_given_le l e : Forall (fun e => 0 <= snd e <= 255) l -> In e l -> snd e <= all_given l.
Proof.
  unfold all_given. induction l as [|a l IH]; intros F I; [destruct I|]. inversion F as [|? ? Fa F']; subst. cbn [map sumZ fold_right]. fold (sumZ (map snd l)).
  assert (P : 0 <= sumZ (map snd l)).
  { clear -F'. induction F' as [|b l B F IH]; cbn [map sumZ fold_right]; [lia|]. fold (sumZ (map snd l)). lia. }
  destruct I as [->|I]; [lia|]. pose proof (IH F' I). lia.
Qed.
(** Sums over the 26 points. *)
Lemma sumZ_app a b : sumZ (a ++ b) = sumZ a + sumZ b.
Proof. unfold sumZ. induction a as [|x a IH]; cbn [app fold_right]; lia. Qed.
Lemma given_total l : Forall (fun e => (fst e < 26)%nat) l -> sumZ (map (given l) (seq 0 26)) = all_given l.
Proof.
  unfold all_given. intros F. induction F as [|(i, v) l Fi F IH].
  - reflexivity.
  - cbn [map snd]. change (sumZ (v :: map snd l)) with (v + sumZ (map snd l)). rewrite <- IH. clear IH F. cbn [fst] in Fi.
    assert (H : forall j, given ((i, v) :: l) j = (if Nat.eqb i j then v else 0) + given l j).
    { intros j. unfold given. cbn [filter fst]. destruct (Nat.eqb i j); cbn [map snd]; [change (sumZ (v :: ?a)) with (v + sumZ a)|]; reflexivity. }
    assert (Sp : forall a, sumZ (map (given ((i, v) :: l)) a) = sumZ (map (fun j => if Nat.eqb i j then v else 0) a) + sumZ (map (given l) a)).
    { induction a as [|j a IHa]; [reflexivity|]. cbn [map]. unfold sumZ in *. cbn [fold_right]. rewrite H, IHa. lia. }
    rewrite Sp. f_equal.
    assert (T : forall a n, sumZ (map (fun j => if Nat.eqb i j then v else 0) (seq a n)) = if ((a <=? i) && (i <? a + n))%nat then v else 0).
    { intros a n. revert a. induction n as [|n IHn]; intros a.
      - cbn [seq map]. destruct (Nat.leb_spec a i); destruct (Nat.ltb_spec i (a + 0)); cbn [andb]; try reflexivity; lia.
      - cbn [seq map]. unfold sumZ. cbn [fold_right]. fold (sumZ (map (fun j => if Nat.eqb i j then v else 0) (seq (S a) n))). rewrite IHn.
        destruct (Nat.eqb_spec i a); destruct (Nat.leb_spec (S a) i); destruct (Nat.ltb_spec i (S a + n)); destruct (Nat.leb_spec a i); destruct (Nat.ltb_spec i (a + S n));
          cbn [andb]; lia. }
    rewrite T. destruct (Nat.ltb_spec i (0 + 26)); [reflexivity|lia].
Qed.
Lemma given_nonneg l i : Forall (fun e => 0 <= snd e <= 255) l -> 0 <= given l i.
Proof.
  intros F. unfold given. induction F as [|(j, v) l Fj F IH]; [cbn; lia|]. cbn [filter fst]. destruct (Nat.eqb j i); auto.
  cbn [map]. unfold sumZ in *. cbn [fold_right snd] in *. lia.
Qed.
(** The board described by the two maps: as long as no point is given to both sides and no side is given
    more than 127 checkers, the position is built exactly when neither side gets more than N checkers, x
    gets none on o's bar and o none on x's bar; it shows the given checkers, the others are borne off, and
    x is to move. *)
Theorem C51_from_hash_maps : forall m N x o, 1 <= N <= 127 -> map_entries x -> map_entries o ->
  (forall e, In e x \/ In e o -> (fst e <= 25)%nat) -> (forall i, In i (map fst x) -> ~ In i (map fst o)) ->
  all_given x <= 127 -> all_given o <= 127 ->
  (all_given x <= N /\ all_given o <= N /\ given x 0 = 0 /\ given o 25 = 0 ->
   exists p, from_hash_maps m N x o = Ret p /\ wf N p /\ turn p = true /\ x_off p = N - all_given x /\ o_off p = N - all_given o /\
     forall i, (i <= 25)%nat -> pt p i = given x i - given o i) /\
  (~ (all_given x <= N /\ all_given o <= N /\ given x 0 = 0 /\ given o 25 = 0) -> exists k, from_hash_maps m N x o = Panic k).
Proof.
  intros m N x o HN (Nx & Vx) (No & Vo) K D Sx So.
  assert (Kx : Forall (fun e => (fst e < 26)%nat) x) by (apply Forall_forall; intros e I; specialize (K e (or_introl I)); lia).
  assert (Ko : Forall (fun e => (fst e < 26)%nat) o) by (apply Forall_forall; intros e I; specialize (K e (or_intror I)); lia).
  assert (Bx : forall e, In e x -> 0 <= snd e <= 127).
  { intros e I. pose proof (@all_given_le _ _ Vx I). rewrite Forall_forall in Vx. specialize (Vx e I). lia. }
  assert (Bo : forall e, In e o -> 0 <= snd e <= 127).
  { intros e I. pose proof (@all_given_le _ _ Vo I). rewrite Forall_forall in Vo. specialize (Vo e I). lia. }
  set (ps := map (given x) (seq 0 26)). set (qs := map (fun i => given x i - given o i) (seq 0 26)).
  assert (Lps : length ps = 26%nat) by (unfold ps; rewrite map_length, seq_length; auto).
  assert (Lqs : length qs = 26%nat) by (unfold qs; rewrite map_length, seq_length; auto).
  assert (Pn : forall i, (i < 26)%nat -> nth i ps 0 = given x i).
  { intros i Li. unfold ps. rewrite (nth_indep _ 0 (given x 0)) by (rewrite map_length, seq_length; lia). rewrite map_nth, seq_nth by lia. reflexivity. }
  assert (Qn : forall i, (i < 26)%nat -> nth i qs 0 = given x i - given o i).
  { intros i Li. unfold qs. rewrite (nth_indep _ 0 (given x 0 - given o 0)) by (rewrite map_length, seq_length; lia).
    rewrite (@map_nth _ _ (fun i => given x i - given o i)), seq_nth by lia. reflexivity. }
  assert (E1 : mfold (fun ps '(i, v) => assign ps i (as_i8 v)) x (repeat 0 26) = Ret ps).
  { apply (@fill_x _ Nx); [reflexivity|]. split; auto. split; auto. split.
    - intros i v I. rewrite Forall_forall in Kx. pose proof (Kx _ I) as Ki. cbn [fst] in Ki. rewrite Pn by auto. rewrite (@given_in _ _ _ Nx I).
      rewrite as_i8_small; auto. apply (Bx _ I).
    - intros i I. rewrite nth_repeat. destruct (Nat.lt_ge_cases i 26) as [Li|Li].
      + rewrite Pn by auto. apply given_out, I.
      + apply nth_overflow. lia. }
  assert (E2 : forall m, mfold (fun ps '(i, v) =>
          (match m with
           | Debug => w <- index ps i ;; debug_assert m (w =? 0)
           | Release => Ret tt
           end) ;;;
          n <- i8 m (- as_i8 v) ;;
          assign ps i n) o ps = Ret qs).
  { intros m'. apply (@fill_o m' _ No); auto. split; [|split; [auto|split]].
    - apply Forall_forall. intros (i, v) I. rewrite Forall_forall in Ko. pose proof (Ko _ I) as Ki. split; auto. intros _. cbn [fst] in *.
      rewrite Pn by auto. apply given_out. intros X. apply (D i X). apply in_map_iff. exists (i, v). auto.
    - intros i v I. rewrite Forall_forall in Ko. pose proof (Ko _ I) as Ki. cbn [fst] in Ki. rewrite Qn by auto.
      rewrite (@given_in _ _ _ No I). rewrite (@given_out x i).
      2:{ intros X. apply (D i X). apply in_map_iff. exists (i, v). auto. }
      pose proof (Bo _ I) as B. cbn [snd] in B. rewrite as_i8_small by auto. rewrite i8_neg by auto. f_equal; lia.
    - intros i I. destruct (Nat.lt_ge_cases i 26) as [Li|Li]; [|rewrite !nth_overflow by lia; auto].
      rewrite Qn, Pn, (@given_out _ _ I) by auto. lia. }
  assert (X : forall i, given x i = 0 \/ given o i = 0).
  { intros i. destruct (in_dec Nat.eq_dec i (map fst x)) as [I|I]; [right; apply given_out, D, I|left; apply given_out, I]. }
  assert (Cx : x_count qs = all_given x).
  { unfold x_count, qs. rewrite map_map. rewrite <- (@given_total _ Kx). f_equal. apply map_ext. intros i.
    pose proof (@given_nonneg _ i Vx). pose proof (@given_nonneg _ i Vo). destruct (X i); lia. }
  assert (Co : o_count qs = all_given o).
  { unfold o_count, qs. rewrite map_map. rewrite <- (@given_total _ Ko). f_equal. apply map_ext. intros i.
    pose proof (@given_nonneg _ i Vx). pose proof (@given_nonneg _ i Vo). destruct (X i); lia. }
  assert (AC : acceptable N qs <-> all_given x <= N /\ all_given o <= N /\ given x 0 = 0 /\ given o 25 = 0).
  { unfold acceptable. rewrite Cx, Co, !Qn by lia.
    pose proof (@given_nonneg _ 0%nat Vx). pose proof (@given_nonneg _ 0%nat Vo). pose proof (@given_nonneg _ 25%nat Vx). pose proof (@given_nonneg _ 25%nat Vo).
    destruct (X 0%nat), (X 25%nat); lia. }
  destruct (@C08_try_from_partial m N qs HN Lqs ltac:(lia) ltac:(lia)) as (r & Er & An).
  unfold from_hash_maps. rewrite E1, bind_ret, E2, bind_ret, Er, bind_ret. rewrite <- AC.
  destruct r as [er|p]; cbn [try_answer] in An.
  - split; [tauto|]. intros _. eauto.
  - destruct An as (A & W & Ep & T & Xo & Oo). split; [|tauto]. intros _. exists p. split; auto. split; auto. split; auto.
    rewrite Xo, Oo, Cx, Co. split; auto. split; auto. intros i Li. unfold pt. rewrite Ep. apply Qn. lia.
Qed.
(** A point given to both sides is refused by a debug build; a release build lets o's checkers win. *)
Theorem C51_shared_point_debug : forall N x o i, map_entries x -> map_entries o -> given x i <> 0 -> In i (map fst o) ->
  exists k, from_hash_maps Debug N x o = Panic k.
Proof.
  intros N x o i (Nx & Vx) (No & _) G I. unfold from_hash_maps.
  destruct (mfold (fun ps '(i, v) => assign ps i (as_i8 v)) x (repeat 0 26)) as [ps|k] eqn:E1; [|exists k; reflexivity].
  rewrite bind_ret. match goal with |- exists k, bind ?a _ = _ => destruct a as [qs|k] eqn:E2 end; [|exists k; reflexivity].
  exfalso. apply (@fill_x _ Nx) in E1; [|reflexivity]. destruct E1 as (F & L & A & B).
  apply (@fill_o Debug _ No) in E2; auto. destruct E2 as (F2 & _).
  apply in_map_iff in I. destruct I as ((j, w) & Ej & I). cbn [fst] in Ej. subst j.
  rewrite Forall_forall in F2. destruct (F2 _ I) as (_ & H). specialize (H eq_refl). cbn [fst] in H.
  destruct (in_dec Nat.eq_dec i (map fst x)) as [J|J]; [|apply G, given_out, J].
  apply in_map_iff in J. destruct J as ((j, v) & Ej & J). cbn [fst] in Ej. subst j. rewrite (A _ _ J) in H. rewrite (@given_in _ _ _ Nx J) in G.
  rewrite Forall_forall in Vx. specialize (Vx _ J). cbn [snd] in Vx. unfold as_i8, wrap_i8 in H.
  assert (M : (v + 128) mod 256 = 128) by lia. destruct (Z.lt_ge_cases (v + 128) 256) as [Q|Q].
  - rewrite Z.mod_small in M by lia. lia.
  - replace (v + 128) with (v - 128 + 1 * 256) in M by lia. rewrite Z.mod_add, Z.mod_small in M by lia. lia.
Qed.
Example C51_ex : exists p, from_hash_maps Debug 15 [(24%nat, 2); (13%nat, 5); (8%nat, 3); (6%nat, 5)] [(19%nat, 5); (17%nat, 3); (12%nat, 5); (1%nat, 2)] = Ret p /\
  pips p = pips BACKGAMMON.
Proof. eexists. split; [vm_compute; reflexivity|reflexivity]. Qed.
