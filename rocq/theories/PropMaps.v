(** Property C51 on all maps.  Read with SpecMaps.v, SpecConversion.v, SpecExact.v. *)
From Verif Require Import SpecMaps PropConversion PropExact PropExact2 TryFromFacts BaseFacts.
Unset Implicit Arguments.
Open Scope Z_scope.

Lemma fold_panics : forall {A B} (f : A -> B -> res A) l a, (forall r, mfold f l a <> Ret r) -> exists k, mfold f l a = Panic k.
Proof. intros A B f l a H. destruct (mfold f l a) as [r|k]; [destruct (H r eq_refl)|eauto]. Qed.

Definition x_board (x : list (nat * Z)) : list Z := map (fun i => if in_dec Nat.eq_dec i (map fst x) then as_i8 (given x i) else 0) (seq 0 26).
Lemma nth_seq_map (f : nat -> Z) i : (i < 26)%nat -> nth i (map f (seq 0 26)) 0 = f i.
Proof.
  intros L. rewrite (nth_indep _ 0 (f 0%nat)) by (rewrite map_length, seq_length; lia).
  rewrite map_nth, seq_nth by lia. reflexivity.
Qed.
Lemma x_board_len x : length (x_board x) = 26%nat.
Proof. unfold x_board. rewrite map_length, seq_length. reflexivity. Qed.
Lemma x_filled x : NoDup (map fst x) -> Forall (fun e => (fst e < 26)%nat) x ->
  mfold (fun ps '(i, v) => assign ps i (as_i8 v)) x (repeat 0 26) = Ret (x_board x).
Proof.
  intros N F. apply (@fill_x _ N); [reflexivity|]. split; [exact F|]. split; [apply x_board_len|]. rewrite Forall_forall in F. split.
  - intros i v I. pose proof (F _ I) as L. cbn [fst] in L. unfold x_board. rewrite nth_seq_map by exact L.
    destruct (in_dec Nat.eq_dec i (map fst x)) as [_|X]; [rewrite (@given_in _ _ _ N I); reflexivity|].
    destruct X. apply (in_map fst _ _ I).
  - intros i I. rewrite nth_repeat. destruct (Nat.lt_ge_cases i 26) as [L|L]; [|apply nth_overflow; rewrite x_board_len; exact L].
    unfold x_board. rewrite nth_seq_map by exact L. destruct (in_dec Nat.eq_dec i (map fst x)); [contradiction|reflexivity].
Qed.

Lemma board_given_fun x o ps qs : board_given x o ps -> board_given x o qs -> ps = qs.
Proof.
  intros (L & H) (L' & H'). apply (@nth_ext _ _ _ 0 0); [congruence|]. intros i I.
  destruct (H i ltac:(lia)) as (A & B), (H' i ltac:(lia)) as (A' & B').
  destruct (in_dec Nat.eq_dec i (map fst o)) as [J|J]; [exact (wraps_fun (A J) (A' J))|exact (wraps_fun (B J) (B' J))].
Qed.

Lemma as_i8_neg_wraps v : wraps_to (- v) (wrap_i8 (- as_i8 v)).
Proof.
  destruct (as_i8_wraps v) as (_ & k & E). destruct (wrap_wraps (- as_i8 v)) as (R & j & F).
  split; [exact R|]. exists (j - k). lia.
Qed.
Lemma as_i8_zero v : 0 <= v <= 255 -> (as_i8 v = 0 <-> v = 0).
Proof.
  intros B. destruct (as_i8_wraps v) as (R & k & E). split; [intros X; lia|]. intros ->. reflexivity.
Qed.
Lemma as_i8_low v : 0 <= v <= 255 -> (as_i8 v = -128 <-> v = 128).
Proof.
  intros B. destruct (as_i8_wraps v) as (R & k & E). split; [intros X; lia|]. intros ->. reflexivity.
Qed.
Lemma i8_debug_neg v : 0 <= v <= 255 -> v <> 128 -> i8 Debug (- as_i8 v) = Ret (wrap_i8 (- as_i8 v)).
Proof.
  intros B N. destruct (as_i8_wraps v) as (R & _). assert (as_i8 v <> -128) by (rewrite as_i8_low; auto).
  rewrite i8_ret by lia. f_equal. destruct (wrap_wraps (- as_i8 v)) as (R' & k & E). lia.
Qed.

Definition xo_board (x o : list (nat * Z)) : list Z :=
  map (fun i => if in_dec Nat.eq_dec i (map fst o) then wrap_i8 (- as_i8 (given o i)) else nth i (x_board x) 0) (seq 0 26).
Lemma xo_board_len x o : length (xo_board x o) = 26%nat.
Proof. unfold xo_board. rewrite map_length, seq_length. reflexivity. Qed.
Lemma xo_board_given x o : board_given x o (xo_board x o).
Proof.
  split; [apply xo_board_len|]. intros i I. unfold xo_board. rewrite nth_seq_map by lia.
  destruct (in_dec Nat.eq_dec i (map fst o)) as [J|J]; split; intros K; try contradiction.
  - apply as_i8_neg_wraps.
  - unfold x_board. rewrite nth_seq_map by lia. destruct (in_dec Nat.eq_dec i (map fst x)) as [X|X]; [apply as_i8_wraps|].
    rewrite (@given_out x i X). apply wraps_zero.
Qed.

Section Filling.
  Variables (x o : list (nat * Z)).
  Hypothesis (Ex : map_entries x) (Eo : map_entries o) (K : keys_fit x o).
  Lemma keys_x : Forall (fun e => (fst e < 26)%nat) x.
  Proof. apply Forall_forall. intros e I. pose proof (K e (or_introl I)). lia. Qed.
  Lemma keys_o : Forall (fun e => (fst e < 26)%nat) o.
  Proof. apply Forall_forall. intros e I. pose proof (K e (or_intror I)). lia. Qed.
  Lemma keys_o_in i v : In (i, v) o -> (i < 26)%nat.
  Proof. intros I. pose proof keys_o as F. rewrite Forall_forall in F. exact (F _ I). Qed.

  Definition fill m := mfold (fun ps '(i, v) =>
          (match m with
           | Debug => w <- index ps i ;; debug_assert m (w =? 0)
           | Release => Ret tt
           end) ;;;
          n <- i8 m (- as_i8 v) ;;
          assign ps i n) o (x_board x).
  Lemma fill_release : fill Release = Ret (xo_board x o).
  Proof.
    destruct Eo as (No & Vo). apply (@fill_o Release _ No); [apply x_board_len|].
    split; [|split; [apply xo_board_len|split]].
    - eapply Forall_impl; [|exact keys_o]. intros e L. split; [exact L|discriminate].
    - intros i v I. rewrite i8_release_wrap. f_equal. unfold xo_board. rewrite nth_seq_map by exact (keys_o_in _ _ I).
      destruct (in_dec Nat.eq_dec i (map fst o)) as [_|X]; [rewrite (@given_in _ _ _ No I); reflexivity|].
      destruct X. apply (in_map fst _ _ I).
    - intros i I. destruct (Nat.lt_ge_cases i 26) as [L|L]; [|rewrite !nth_overflow by (rewrite ?xo_board_len, ?x_board_len; lia); reflexivity].
      unfold xo_board. rewrite nth_seq_map by exact L. destruct (in_dec Nat.eq_dec i (map fst o)); [contradiction|reflexivity].
  Qed.
  Definition clean : Prop := (forall i, In i (map fst o) -> given x i = 0) /\ (forall e, In e o -> snd e <> 128).
  Lemma fill_debug_iff r : fill Debug = Ret r <-> clean /\ r = xo_board x o.
  Proof.
    destruct Eo as (No & Vo). destruct Ex as (Nx & Vx). unfold fill.
    rewrite (@fill_o Debug o No (x_board x) r (x_board_len x)). rewrite Forall_forall in Vx, Vo.
    assert (Z0 : forall i, (i < 26)%nat -> (nth i (x_board x) 0 = 0 <-> given x i = 0)).
    { intros i L. unfold x_board. rewrite nth_seq_map by exact L. destruct (in_dec Nat.eq_dec i (map fst x)) as [X|X].
      - apply in_map_iff in X. destruct X as ((j, v) & Ej & X). cbn [fst] in Ej. subst j. rewrite (@given_in _ _ _ Nx X).
        apply as_i8_zero. exact (Vx _ X).
      - rewrite (@given_out x i X). tauto. }
    split.
    - intros (F & L & A & B). rewrite Forall_forall in F.
      assert (C2 : forall e, In e o -> snd e <> 128).
      { intros (i, v) I E. cbn [snd] in E. subst v. specialize (A _ _ I). cbv in A. discriminate. }
      split; [split; [|exact C2]|].
      + intros i I. apply in_map_iff in I. destruct I as ((j, v) & Ej & I). cbn [fst] in Ej. subst j.
        destruct (F _ I) as (Li & D). apply Z0; [exact Li|]. apply D; reflexivity.
      + apply (@nth_ext _ _ _ 0 0); [rewrite L, xo_board_len; reflexivity|]. intros i Li. rewrite L in Li.
        unfold xo_board. rewrite nth_seq_map by exact Li. destruct (in_dec Nat.eq_dec i (map fst o)) as [I|I]; [|exact (B i I)].
        apply in_map_iff in I. destruct I as ((j, v) & Ej & I). cbn [fst] in Ej. subst j. rewrite (@given_in _ _ _ No I).
        specialize (A _ _ I). rewrite i8_debug_neg in A by (exact (Vo _ I) || exact (C2 _ I)). congruence.
    - intros ((C1 & C2) & ->). split; [|split; [apply xo_board_len|split]].
      + apply Forall_forall. intros (i, v) I. pose proof (keys_o_in _ _ I) as L. split; [exact L|]. intros _. cbn [fst].
        apply Z0; [exact L|]. apply C1. exact (in_map fst _ _ I).
      + intros i v I. rewrite i8_debug_neg by (exact (Vo _ I) || exact (C2 _ I)). f_equal. unfold xo_board.
        rewrite nth_seq_map by exact (keys_o_in _ _ I).
        destruct (in_dec Nat.eq_dec i (map fst o)) as [_|X]; [rewrite (@given_in _ _ _ No I); reflexivity|].
        destruct X. apply (in_map fst _ _ I).
      + intros i I. destruct (Nat.lt_ge_cases i 26) as [L|L]; [|rewrite !nth_overflow by (rewrite ?xo_board_len, ?x_board_len; lia); reflexivity].
        unfold xo_board. rewrite nth_seq_map by exact L. destruct (in_dec Nat.eq_dec i (map fst o)); [contradiction|reflexivity].
  Qed.
  Lemma maps_fill m N : from_hash_maps m N x o =
    (ps <- fill m ;; r <- try_from m N ps ;; match r with inl _ => Panic Unwrapped | inr p => Ret p end).
  Proof. unfold from_hash_maps. rewrite x_filled by (exact keys_x || apply Ex). rewrite bind_ret. reflexivity. Qed.
End Filling.

(** ** C51 *)

(** A key that is no point makes every build panic. *)
Theorem C51_bad_key : forall m N x o, map_entries x -> map_entries o -> ~ keys_fit x o ->
  exists k, from_hash_maps m N x o = Panic k.
Proof.
  intros m N x o (Nx & _) (No & _) K. unfold from_hash_maps.
  destruct (mfold (fun ps '(i, v) => assign ps i (as_i8 v)) x (repeat 0 26)) as [ps|k] eqn:E1; [|exists k; reflexivity].
  rewrite bind_ret. match goal with |- exists k, bind ?a _ = _ => destruct a as [qs|k] eqn:E2 end; [|exists k; reflexivity].
  exfalso. apply K. apply (@fill_x _ Nx) in E1; [|reflexivity]. destruct E1 as (F & L & _).
  apply (@fill_o m _ No) in E2; [|exact L]. destruct E2 as (F2 & _). rewrite Forall_forall in F, F2.
  intros e [I|I]; [pose proof (F _ I)|pose proof (F2 _ I)]; lia.
Qed.

(** On any other maps a release build takes the board as described, 8-bit, and answers as [try_from] does
    on it (C59): the position, or a panic in place of an error. *)
Theorem C51_exact_release : forall N x o, 1 <= N <= 127 -> map_entries x -> map_entries o -> keys_fit x o ->
  exists ps xo oo r, board_given x o ps /\ wraps_to (N - x_count ps) xo /\ wraps_to (N - o_count ps) oo /\
    answer_with xo oo ps r /\
    from_hash_maps Release N x o = match r with inr p => Ret p | inl _ => Panic Unwrapped end.
Proof.
  intros N x o HN Ex Eo K. destruct (@C59_release N _ HN (xo_board_len x o)) as (r & xo & oo & E & A & B & C).
  exists (xo_board x o), xo, oo, r. split; [apply xo_board_given|]. do 3 (split; [assumption|]).
  rewrite (maps_fill x o Ex K), (fill_release x o Eo K), bind_ret, E, bind_ret. reflexivity.
Qed.

(** A debug build gives the same position, and panics instead exactly when a point with x checkers is also
    in o's map, when 128 checkers are given for o, when a side's sum is too much for 8 bits - or when
    the release build panics. *)
Theorem C51_exact_debug : forall N x o ps p, 1 <= N <= 127 -> map_entries x -> map_entries o -> keys_fit x o ->
  board_given x o ps ->
  from_hash_maps Debug N x o = Ret p <->
  from_hash_maps Release N x o = Ret p /\
  (forall i, In i (map fst o) -> given x i = 0) /\ (forall e, In e o -> snd e <> 128) /\ ~ overflows ps.
Proof.
  intros N x o ps p HN Ex Eo K G. rewrite (board_given_fun x o ps _ G (xo_board_given x o)).
  rewrite !(maps_fill x o Ex K), (fill_release x o Eo K), bind_ret.
  destruct (@C59_debug_panics N _ HN (xo_board_len x o)) as (P & Q). split.
  - intros E. apply bind_inv in E. destruct E as (qs & F & E). apply (fill_debug_iff x o Ex Eo K) in F. destruct F as ((C1 & C2) & ->).
    assert (O : ~ overflows (xo_board x o)) by (intros O; apply P in O; rewrite O in E; discriminate).
    rewrite (Q O) in E. auto.
  - intros (E & C1 & C2 & O). rewrite (proj2 (fill_debug_iff x o Ex Eo K _) (conj (conj C1 C2) eq_refl)), bind_ret.
    rewrite (Q O). exact E.
Qed.
(** Cases: 130 checkers of o on the 6 point are 126 of x's; a debug build panics on 128. *)
Example C51_exact_ex : map_entries [(8%nat, 1)] /\ map_entries [(6%nat, 130)] /\ keys_fit [(8%nat, 1)] [(6%nat, 130)] /\
  board_given [(8%nat, 1)] [(6%nat, 130)] [0;0;0;0;0;0;126;0;1;0;0;0;0;0;0;0;0;0;0;0;0;0;0;0;0;0] /\
  (exists p, from_hash_maps Debug 127 [(8%nat, 1)] [(6%nat, 130)] = Ret p /\ x_off p = 0) /\
  (exists p, from_hash_maps Release 15 [(8%nat, 2)] [(8%nat, 1)] = Ret p /\ pt p 8 = -1) /\
  from_hash_maps Debug 15 [] [(8%nat, 128)] = Panic Overflow.
Proof.
  split; [|split; [|split; [|split; [|split; [|split]]]]].
  - split; [repeat constructor; simpl; tauto|repeat constructor; simpl; lia].
  - split; [repeat constructor; simpl; tauto|repeat constructor; simpl; lia].
  - intros e [[<-|[]]|[<-|[]]]; simpl; lia.
  - assert (E : xo_board [(8%nat, 1)] [(6%nat, 130)] = [0;0;0;0;0;0;126;0;1;0;0;0;0;0;0;0;0;0;0;0;0;0;0;0;0;0]) by (vm_compute; reflexivity).
    rewrite <- E. apply xo_board_given.
  - eexists. split; [vm_compute; reflexivity|reflexivity].
  - eexists. split; [vm_compute; reflexivity|reflexivity].
  - vm_compute. reflexivity.
Qed.

(** ** The macro [pos!] *)
Definition inserted (l : list (nat * Z)) : list (nat * Z) := fold_left (fun h '(k, v) => hm_insert h k v) l [].
Lemma inserted_snoc l k v : inserted (l ++ [(k, v)]) = hm_insert (inserted l) k v.
Proof. unfold inserted. rewrite fold_left_app. reflexivity. Qed.
Lemma insert_keys h k v i : In i (map fst (hm_insert h k v)) <-> i = k \/ In i (map fst h).
Proof.
  unfold hm_insert. cbn [map fst In]. rewrite !in_map_iff. split.
  - intros [->|(e & <- & I)]; [auto|]. apply filter_In in I. right. exists e. tauto.
  - intros [->|(e & <- & I)]; [auto|]. destruct (Nat.eq_dec (fst e) k) as [->|Ne]; [auto|].
    right. exists e. split; auto. apply filter_In. split; auto. apply negb_true_iff, Nat.eqb_neq. exact Ne.
Qed.
Lemma nodup_filter {A B} (f : A -> B) (t : A -> bool) l : NoDup (map f l) -> NoDup (map f (filter t l)).
Proof.
  induction l as [|a l IH]; cbn; [auto|]. intros H. inversion_clear H as [|? ? N D].
  destruct (t a); cbn; auto. constructor; auto. rewrite in_map_iff in *. intros (x & E & I). apply N.
  exists x. apply filter_In in I. tauto.
Qed.
Lemma insert_entries h k v : map_entries h -> 0 <= v <= 255 -> map_entries (hm_insert h k v).
Proof.
  intros (D & F) V. split.
  - unfold hm_insert. cbn [map fst]. constructor; [|apply nodup_filter, D].
    rewrite in_map_iff. intros (e & E & I). apply filter_In in I. destruct I as (_ & I). rewrite E, Nat.eqb_refl in I. discriminate.
  - constructor; [exact V|]. rewrite Forall_forall in *. intros e I. apply filter_In in I. apply F, I.
Qed.
Lemma given_cons k v l i : given ((k, v) :: l) i = (if Nat.eqb k i then v else 0) + given l i.
Proof. unfold given. cbn [filter fst]. destruct (Nat.eqb k i); reflexivity. Qed.
Lemma given_filter_out h k : given (filter (fun e => negb (Nat.eqb (fst e) k)) h) k = 0.
Proof.
  apply given_out. rewrite in_map_iff. intros (e & E & I). apply filter_In in I. destruct I as (_ & I).
  rewrite E, Nat.eqb_refl in I. discriminate.
Qed.
Lemma given_filter_other h k i : i <> k -> given (filter (fun e => negb (Nat.eqb (fst e) k)) h) i = given h i.
Proof.
  intros Ne. induction h as [|(a, b) h IH]; [reflexivity|]. cbn [filter fst]. rewrite given_cons.
  destruct (Nat.eqb_spec a k) as [->|N1]; cbn [negb]; [|rewrite given_cons, IH; reflexivity].
  destruct (Nat.eqb_spec k i); [congruence|]. rewrite IH. lia.
Qed.
Lemma given_insert h k v i : given (hm_insert h k v) i = if Nat.eq_dec k i then v else given h i.
Proof.
  unfold hm_insert. rewrite given_cons. destruct (Nat.eq_dec k i) as [->|Ne].
  - rewrite Nat.eqb_refl, given_filter_out. lia.
  - apply Nat.eqb_neq in Ne as Eb. rewrite Eb, given_filter_other by congruence. lia.
Qed.
Lemma last_snoc l k v i : last_given (l ++ [(k, v)]) i = if Nat.eq_dec k i then v else last_given l i.
Proof.
  induction l as [|(a, b) l IH]; cbn [app last_given map fst].
  - destruct (in_dec Nat.eq_dec i []) as [[]|]. reflexivity.
  - rewrite map_app. cbn [map fst].
    destruct (in_dec Nat.eq_dec i (map fst l ++ [k])) as [I|I], (Nat.eq_dec k i) as [->|Ne].
    + rewrite IH. reflexivity.
    + destruct (in_dec Nat.eq_dec i (map fst l)) as [J|J]; [exact IH|].
      apply in_app_iff in I. cbn in I. intuition congruence.
    + exfalso. apply I, in_app_iff. right. left. reflexivity.
    + destruct (in_dec Nat.eq_dec i (map fst l)) as [J|J]; [|reflexivity]. exfalso. apply I, in_app_iff. auto.
Qed.
Lemma inserted_spec l : written_entries l -> map_entries (inserted l) /\
  (forall i, In i (map fst (inserted l)) <-> In i (map fst l)) /\ forall i, given (inserted l) i = last_given l i.
Proof.
  induction l as [|(k, v) l IH] using rev_ind; intros H.
  - split; [split; constructor|]. split; intros; reflexivity.
  - apply Forall_app in H. destruct H as (H & Hv). inversion_clear Hv as [|? ? (Hk & Hv') _]. cbn [fst snd] in *.
    destruct (IH H) as (A & B & C). rewrite inserted_snoc. split; [apply insert_entries; auto|]. split.
    + intros i. rewrite insert_keys, B, map_app, in_app_iff. cbn. intuition congruence.
    + intros i. rewrite given_insert, last_snoc, C. reflexivity.
Qed.
Lemma perm_entries l l' : Permutation l l' -> map_entries l -> map_entries l'.
Proof.
  intros P (D & F). split; [eapply Permutation_NoDup; [apply Permutation_map, P|exact D]|].
  eapply Permutation_Forall; eauto.
Qed.
Lemma sumZ_perm l l' : Permutation l l' -> sumZ l = sumZ l'.
Proof. induction 1; cbn; fold sumZ in *; unfold sumZ in *; cbn; lia. Qed.
Lemma filter_perm {A} (f : A -> bool) l l' : Permutation l l' -> Permutation (filter f l) (filter f l').
Proof.
  induction 1; cbn; auto.
  - destruct (f x); auto.
  - destruct (f x), (f y); auto. constructor.
  - etransitivity; eauto.
Qed.
Lemma given_perm l l' i : Permutation l l' -> given l i = given l' i.
Proof. intros P. unfold given. apply sumZ_perm, Permutation_map, filter_perm, P. Qed.

(** What the macro [pos!] builds, whatever the order of the maps: as long as no point is written for both
    sides and no side gets more than 127 checkers, the position with the checkers written (the last number
    counts if a point is written twice), the others of fifteen borne off and x to move - if neither side
    gets more than fifteen, x none on o's bar and o none on x's; otherwise it panics. *)
Theorem C51_macro : forall m order xs os, some_order order -> written_entries xs -> written_entries os ->
  (forall i, In i (map fst xs) -> ~ In i (map fst os)) -> total_given xs <= 127 -> total_given os <= 127 ->
  (total_given xs <= 15 /\ total_given os <= 15 /\ last_given xs 0 = 0 /\ last_given os 25 = 0 ->
   exists p, pos_macro m order xs os = Ret p /\ wf 15 p /\ turn p = true /\
     x_off p = 15 - total_given xs /\ o_off p = 15 - total_given os /\
     forall i, (i <= 25)%nat -> pt p i = last_given xs i - last_given os i) /\
  (~ (total_given xs <= 15 /\ total_given os <= 15 /\ last_given xs 0 = 0 /\ last_given os 25 = 0) ->
   exists k, pos_macro m order xs os = Panic k).
Proof.
  intros m order xs os Or Wx Wo Dj Tx To.
  destruct (inserted_spec xs Wx) as (Ex & Kx & Gx). destruct (inserted_spec os Wo) as (Eo & Ko & Go).
  pose proof (Or (inserted xs)) as Px. pose proof (Or (inserted os)) as Po.
  pose proof (perm_entries _ _ Px Ex) as Ex'. pose proof (perm_entries _ _ Po Eo) as Eo'.
  assert (Ky : forall l, written_entries l -> forall e, In e (order (inserted l)) -> (fst e <= 25)%nat).
  { intros l Wl e I. apply (Permutation_in _ (Permutation_sym (Or (inserted l)))) in I.
    destruct (inserted_spec l Wl) as (_ & K & _). apply (in_map fst), K in I. apply in_map_iff in I.
    destruct I as (e' & <- & I). eapply Forall_forall in Wl; [|exact I]. apply Wl. }
  assert (Al : forall l, written_entries l -> all_given (order (inserted l)) = total_given l).
  { intros l Wl. rewrite <- (@given_total (order (inserted l))).
    - unfold total_given. f_equal. apply map_ext. intros i. destruct (inserted_spec l Wl) as (_ & _ & G).
      rewrite <- G. symmetry. apply given_perm, Or.
    - apply Forall_forall. intros e I. apply (Ky l Wl) in I. lia. }
  assert (Gv : forall l i, written_entries l -> given (order (inserted l)) i = last_given l i).
  { intros l i Wl. destruct (inserted_spec l Wl) as (_ & _ & G). rewrite <- G. symmetry. apply given_perm, Or. }
  assert (Dj' : forall i, In i (map fst (order (inserted xs))) -> ~ In i (map fst (order (inserted os)))).
  { intros i I J. apply (Dj i); [apply Kx|apply Ko].
    - refine (Permutation_in _ (Permutation_sym (Permutation_map _ Px)) I).
    - refine (Permutation_in _ (Permutation_sym (Permutation_map _ Po)) J). }
  assert (Kk : forall e, In e (order (inserted xs)) \/ In e (order (inserted os)) -> (fst e <= 25)%nat).
  { intros e [I|I]; [apply (Ky xs Wx e I)|apply (Ky os Wo e I)]. }
  pose proof (@C51_from_hash_maps m 15 (order (inserted xs)) (order (inserted os))) as T.
  rewrite (Al xs Wx), (Al os Wo), (Gv xs 0%nat Wx), (Gv os 25%nat Wo) in T.
  destruct T as (T1 & T2); try assumption; [lia|]. split.
  - intros H. destruct (T1 H) as (p & E & Wp & Tp & Xp & Op & Pp). exists p. split; [exact E|].
    repeat (split; [assumption|]). intros i Hi. rewrite (Pp i Hi), (Gv xs i Wx), (Gv os i Wo). reflexivity.
  - intros H. apply (T2 H).
Qed.

(** The order in which the points are written is not important (as the documentation of the macro says),
    as long as each is written once; nor is the order of the maps ever. *)
Theorem C51_macro_order : forall m order order' xs os xs' os' p, some_order order -> some_order order' ->
  written_entries xs -> written_entries os -> NoDup (map fst xs) -> NoDup (map fst os) ->
  Permutation xs xs' -> Permutation os os' ->
  pos_macro m order xs os = Ret p -> pos_macro m order' xs' os' = Ret p.
Proof.
  intros m order order' xs os xs' os' p Or Or' Wx Wo Nx No Px Po E.
  assert (Ip : forall l, NoDup (map fst l) -> Permutation (inserted l) l).
  { induction l as [|(k, v) l IH] using rev_ind; intros N; [constructor|]. rewrite inserted_snoc.
    rewrite map_app in N. cbn [map fst] in N. apply NoDup_remove in N. rewrite app_nil_r in N. destruct N as (N & Nk).
    etransitivity; [|apply Permutation_cons_append]. unfold hm_insert. constructor.
    assert (F : filter (fun e : nat * Z => negb (Nat.eqb (fst e) k)) (inserted l) = inserted l).
    { assert (Q : forall e, In e (inserted l) -> fst e <> k).
      { intros e I Ek. apply Nk. subst k. apply in_map. eapply Permutation_in; [apply IH, N|exact I]. }
      revert Q. generalize (inserted l). induction l0 as [|e l0 IH0]; intros Q; [reflexivity|]. cbn.
      pose proof (Q e (or_introl eq_refl)) as Qe. apply Nat.eqb_neq in Qe. rewrite Qe. cbn. f_equal. apply IH0.
      intros; apply Q; right; assumption. }
    rewrite F. apply IH, N. }
  assert (Nx' : NoDup (map fst xs')) by (eapply Permutation_NoDup; [apply Permutation_map, Px|exact Nx]).
  assert (No' : NoDup (map fst os')) by (eapply Permutation_NoDup; [apply Permutation_map, Po|exact No]).
  change (pos_macro m order xs os) with (from_hash_maps m 15 (order (inserted xs)) (order (inserted os))) in E.
  change (pos_macro m order' xs' os') with (from_hash_maps m 15 (order' (inserted xs')) (order' (inserted os'))).
  refine (@C51_order_irrelevant m 15 _ _ _ _ p _ _ _ _ E).
  - eapply perm_entries; [apply Or|apply inserted_spec, Wx].
  - eapply perm_entries; [apply Or|apply inserted_spec, Wo].
  - rewrite <- (Or (inserted xs)), <- (Or' (inserted xs')), (Ip xs Nx), (Ip xs' Nx'). exact Px.
  - rewrite <- (Or (inserted os)), <- (Or' (inserted os')), (Ip os No), (Ip os' No'). exact Po.
Qed.
(** Cases: the documentation's example; a point written twice. *)
Example C51_macro_ex :
  (exists p, pos_macro Debug (fun l => l) [(24%nat, 2); (13%nat, 5); (8%nat, 3); (6%nat, 5)] [(1%nat, 2); (12%nat, 5); (17%nat, 3); (19%nat, 5)] = Ret p /\
     pips p = pips BACKGAMMON) /\
  (exists p, pos_macro Debug (@rev _) [(24%nat, 2); (24%nat, 3)] [] = Ret p /\ pt p 24 = 3 /\ x_off p = 12).
Proof. split; eexists; (split; [vm_compute; reflexivity|]); vm_compute; auto. Qed.
