(** Facts about perft. *)
From Verif Require Export SpecPerft PropDice ModeFacts MoveGenProof.
Open Scope Z_scope.

(** ** Listed positions, also after the end of the game (release builds) *)
Lemma movegen_release N p d : wf N p -> valid_dice d ->
  exists l, classic_positions Release N p d = Ret l /\ l <> [] /\
  (forall q, In q l <-> exists r, legal_result d p r /\ mirrored r q).
Proof.
  intros W V. unfold classic_positions, generate_legal_positions. cbn [debug_assert]. rewrite bind_ret.
  assert (H : exists l, match d with
         | Double die => all_positions_after_double_move Release p die
         | Mixed big small => all_positions_after_mixed_move Release p big small
         end = Ret l /\ l <> [] /\ forall r, In r l <-> legal_result d p r).
  { destruct d as [b s|a].
    - exact (mixed_correct Release W V).
    - exact (double_correct Release W V). }
  destruct H as (l & E & Hn & H). rewrite E, bind_ret.
  rewrite (mmap_ret _ flipP).
  2:{ intros q Hq. apply H in Hq. exact (flip_ret Release (legal_result_wf W V Hq)). }
  rewrite !bind_ret. exists (map flipP l). split; auto. split; [destruct l; [congruence|discriminate]|].
  intros q. rewrite in_map_iff. split.
  - intros (r & <- & Hr). exists r. split; [apply H; auto|]. apply flipP_mirrored.
    apply H in Hr. apply (legal_result_wf W V Hr).
  - intros (r & Hr & M). exists r. split; [|apply H; auto].
    symmetry. apply mirrored_iff; auto. apply (legal_result_wf W V Hr).
Qed.
Lemma movegen_over N p d : ~ ongoing N p -> classic_positions Debug N p d = Panic AssertFail.
Proof.
  intros O. unfold classic_positions, generate_legal_positions. unfold debug_assert.
  destruct ((o_off p <? N) && (x_off p <? N)) eqn:E; [|reflexivity].
  exfalso. apply O. apply andb_true_iff in E. destruct E as (A & B). apply Z.ltb_lt in A, B. split; auto.
Qed.

Definition kids (N : Z) (p : position) (d : dice) : list position :=
  match classic_positions Release N p d with Ret l => l | Panic _ => [] end.
Lemma kids_release N p d : wf N p -> valid_dice d -> classic_positions Release N p d = Ret (kids N p d).
Proof. intros W V. unfold kids. destruct (movegen_release d W V) as (l & -> & _). reflexivity. Qed.
Lemma kids_debug N p d : wf N p -> ongoing N p -> valid_dice d -> classic_positions Debug N p d = Ret (kids N p d).
Proof.
  intros W O V. destruct (movegen_correct Debug d W O V) as (l & E & _). unfold kids.
  unfold classic_positions in *. rewrite E. pose proof (mono_generate N p d E) as M. rewrite M. reflexivity.
Qed.
Lemma kids_wf N p d q : wf N p -> valid_dice d -> In q (kids N p d) -> wf N q.
Proof.
  intros W V I. destruct (movegen_release d W V) as (l & E & _ & H). unfold kids in I. rewrite E in I.
  apply H in I. destruct I as (r & L & M). pose proof (legal_result_wf W V L) as Wr.
  apply mirrored_iff in M; [|apply Wr]. subst q. apply flipP_wf, Wr.
Qed.
Lemma kids_any m N p d l : wf N p -> valid_dice d -> classic_positions m N p d = Ret l -> l = kids N p d /\ (m = Debug -> ongoing N p).
Proof.
  intros W V E. destruct m.
  - destruct (Z_lt_dec (x_off p) N) as [X|X]; [destruct (Z_lt_dec (o_off p) N) as [O|O]|].
    + rewrite kids_debug in E by (auto; split; auto). split; [congruence|]. intros _. split; auto.
    + rewrite movegen_over in E by (intros (_ & ?); tauto). discriminate.
    + rewrite movegen_over in E by (intros (? & _); tauto). discriminate.
  - rewrite kids_release in E by auto. split; [congruence|discriminate].
Qed.

(** ** The exact count *)
Fixpoint cnt (N : Z) (w : bool) (n : nat) (p : position) : Z :=
  match n with
  | O => 1
  | S n' => sumZ (map (fun e => (if w then Z.of_nat (snd e) else 1) * sumZ (map (cnt N w n') (kids N p (fst e)))) ALL_21)
  end.
Lemma all_21_valid e : In e ALL_21 -> valid_dice (fst e) /\ 1 <= Z.of_nat (snd e).
Proof.
  destruct (C28_all_21 Debug) as (l & E & _ & H). rewrite all_21_ret in E. inversion E as [E']. clear E. intros I.
  assert (V : valid_dice (fst e)). { destruct e as (d, w). apply (H d w). rewrite <- E'. auto. }
  split; auto. destruct (C28_weights Debug) as (l2 & E2 & _ & _ & Hw). rewrite all_21_ret in E2. inversion E2 as [E2']. destruct e as (d, w).
  rewrite <- E2' in Hw. pose proof (Hw d w I) as X. cbn [snd]. destruct (is_mixed d); lia.
Qed.
Lemma sumZ_nonneg {A} (f : A -> Z) l : (forall a, In a l -> 0 <= f a) -> 0 <= sumZ (map f l).
Proof.
  induction l as [|a l IH]; intros H; cbn [map sumZ fold_right]; [lia|].
  pose proof (H a (or_introl eq_refl)). fold (sumZ (map f l)). pose proof (IH (fun x I => H x (or_intror I))). lia.
Qed.
Lemma cnt_nonneg N w n : forall p, 0 <= cnt N w n p.
Proof.
  induction n as [|n IH]; intros p; cbn [cnt]; [lia|]. apply sumZ_nonneg. intros e I. destruct (all_21_valid I) as (_ & X).
  pose proof (@sumZ_nonneg _ (cnt N w n) (kids N p (fst e)) (fun q _ => IH q)). destruct w; nia.
Qed.

(** ** Release *)
Definition M := 2 ^ 128.
Lemma u128_release z : u128 Release z = Ret (z mod M).
Proof.
  unfold u128. fold M. destruct ((0 <=? z) && (z <? M)) eqn:E; auto. apply andb_true_iff in E. destruct E as (A & B).
  apply Z.leb_le in A. apply Z.ltb_lt in B. rewrite Z.mod_small by lia. reflexivity.
Qed.
Lemma M_pos : 0 < M. Proof. reflexivity. Qed.
Lemma sumZ_cons {A} (f : A -> Z) a l : sumZ (map f (a :: l)) = f a + sumZ (map f l).
Proof. reflexivity. Qed.
Lemma inner_release N w n mult l : (forall q, In q l -> perft Release N q n w = Ret (cnt N w n q mod M)) -> forall t,
  mfold (fun total next => sub <- perft Release N next n w ;; prod <- u128 Release (mult * sub) ;; u128 Release (total + prod)) l (t mod M)
  = Ret ((t + mult * sumZ (map (cnt N w n) l)) mod M).
Proof.
  induction l as [|q l IH]; intros H t.
  - cbn [mfold map sumZ fold_right]. rewrite Z.mul_0_r, Z.add_0_r. reflexivity.
  - cbn [mfold]. rewrite (H q (or_introl eq_refl)), bind_ret, !u128_release, bind_ret, u128_release, bind_ret.
    rewrite <- Z.add_mod by (pose proof M_pos; lia).
    replace ((t + mult * (cnt N w n q mod M)) mod M) with ((t + mult * cnt N w n q) mod M).
    2:{ rewrite (Z.add_mod t (mult * (cnt N w n q mod M))), Z.mul_mod_idemp_r, <- Z.add_mod by (pose proof M_pos; lia). reflexivity. }
    rewrite IH by (intros; apply H; right; auto). rewrite sumZ_cons. f_equal. f_equal. lia.
Qed.
Lemma perft_release N w n : forall p, wf N p -> perft Release N p n w = Ret (cnt N w n p mod M).
Proof.
  induction n as [|n IH]; intros p W; [reflexivity|]. cbn [perft cnt]. rewrite all_21_ret, bind_ret.
  assert (H : forall l t, (forall e, In e l -> valid_dice (fst e)) ->
    mfold (fun total '(dice_, count) =>
        let mult := if w then Z.of_nat count else 1 in
        legal <- classic_positions Release N p dice_ ;;
        mfold (fun total next =>
          sub <- perft Release N next n w ;;
          prod <- u128 Release (mult * sub) ;;
          u128 Release (total + prod)) legal total) l (t mod M) =
    Ret ((t + sumZ (map (fun e => (if w then Z.of_nat (snd e) else 1) * sumZ (map (cnt N w n) (kids N p (fst e)))) l)) mod M)).
  { induction l as [|(d, c) l IHl]; intros t V.
    - cbn [mfold map sumZ fold_right]. rewrite Z.add_0_r. reflexivity.
    - cbn [mfold]. pose proof (V _ (or_introl eq_refl)) as Vd. cbn [fst] in Vd. cbv zeta. rewrite kids_release by auto. rewrite bind_ret.
      rewrite inner_release by (intros q I; apply IH, (@kids_wf _ _ _ _ W Vd I)). rewrite bind_ret, IHl by (intros; apply V; right; auto).
      rewrite sumZ_cons. cbn [fst snd]. f_equal. f_equal. lia. }
  change 0 with (0 mod M) at 1. rewrite H by (intros e I; apply all_21_valid, I). reflexivity.
Qed.

(** ** Debug *)
Fixpoint good (m : mode) (N : Z) (n : nat) (p : position) : Prop :=
  match n with
  | O => True
  | S n' => (m = Debug -> ongoing N p) /\ forall d q, valid_dice d -> In q (kids N p d) -> good m N n' q
  end.
Lemma good_release N n : forall p, good Release N n p.
Proof. induction n as [|n IH]; intros p; cbn [good]; auto. split; [discriminate|auto]. Qed.
Definition chk (z : Z) : res Z := if z <? M then Ret z else Panic Overflow.
Lemma chk_lt z : z < M -> chk z = Ret z.
Proof. intros H. unfold chk. rewrite (proj2 (Z.ltb_lt _ _) H). reflexivity. Qed.
Lemma chk_ge z : M <= z -> chk z = Panic Overflow.
Proof. intros H. unfold chk. rewrite (proj2 (Z.ltb_ge _ _) H). reflexivity. Qed.
Lemma u128_debug z : 0 <= z -> u128 Debug z = chk z.
Proof. intros H. unfold u128, chk. fold M. rewrite (proj2 (Z.leb_le _ _) H). reflexivity. Qed.
Lemma inner_debug N w n mult l : 1 <= mult -> (forall q, In q l -> perft Debug N q n w = chk (cnt N w n q)) -> forall t, 0 <= t < M ->
  mfold (fun total next => sub <- perft Debug N next n w ;; prod <- u128 Debug (mult * sub) ;; u128 Debug (total + prod)) l t
  = chk (t + mult * sumZ (map (cnt N w n) l)).
Proof.
  intros Hm. induction l as [|q l IH]; intros H t T.
  - cbn [mfold map sumZ fold_right]. rewrite Z.mul_0_r, Z.add_0_r, chk_lt by lia. reflexivity.
  - cbn [mfold]. rewrite (H q (or_introl eq_refl)). rewrite sumZ_cons.
    pose proof (cnt_nonneg N w n q) as C. pose proof (@sumZ_nonneg _ (cnt N w n) l (fun q _ => cnt_nonneg N w n q)) as S.
    destruct (Z_lt_le_dec (cnt N w n q) M) as [L|L]; [|rewrite chk_ge by lia; rewrite chk_ge by nia; reflexivity].
    rewrite chk_lt by lia. rewrite bind_ret, u128_debug by nia.
    destruct (Z_lt_le_dec (mult * cnt N w n q) M) as [L2|L2]; [|rewrite chk_ge by lia; rewrite chk_ge by nia; reflexivity].
    rewrite chk_lt by lia. rewrite bind_ret, u128_debug by nia.
    destruct (Z_lt_le_dec (t + mult * cnt N w n q) M) as [L3|L3]; [|rewrite chk_ge by lia; rewrite chk_ge by nia; reflexivity].
    rewrite chk_lt by lia. rewrite bind_ret, IH by (auto; intros; try apply H; try right; auto; nia). f_equal. lia.
Qed.
Lemma perft_debug N w n : forall p, wf N p -> good Debug N n p -> perft Debug N p n w = chk (cnt N w n p).
Proof.
  induction n as [|n IH]; intros p W G; [reflexivity|]. cbn [perft cnt]. rewrite all_21_ret, bind_ret. destruct G as (O & G). specialize (O eq_refl).
  assert (H : forall l t, 0 <= t < M -> (forall e, In e l -> valid_dice (fst e) /\ 1 <= Z.of_nat (snd e)) ->
    mfold (fun total '(dice_, count) =>
        let mult := if w then Z.of_nat count else 1 in
        legal <- classic_positions Debug N p dice_ ;;
        mfold (fun total next =>
          sub <- perft Debug N next n w ;;
          prod <- u128 Debug (mult * sub) ;;
          u128 Debug (total + prod)) legal total) l t =
    chk (t + sumZ (map (fun e => (if w then Z.of_nat (snd e) else 1) * sumZ (map (cnt N w n) (kids N p (fst e)))) l))).
  { induction l as [|(d, c) l IHl]; intros t T V.
    - cbn [mfold map sumZ fold_right]. rewrite Z.add_0_r, chk_lt by lia. reflexivity.
    - cbn [mfold]. destruct (V _ (or_introl eq_refl)) as (Vd & Vc). cbn [fst snd] in Vd, Vc. cbv zeta. rewrite kids_debug by auto. rewrite bind_ret.
      assert (Hm : 1 <= (if w then Z.of_nat c else 1)) by (destruct w; lia).
      assert (Hq : forall q, In q (kids N p d) -> perft Debug N q n w = chk (cnt N w n q)).
      { intros q I. apply IH; [apply (@kids_wf _ _ _ _ W Vd I)|apply (G d q Vd I)]. }
      rewrite (@inner_debug N w n _ _ Hm Hq t T).
      rewrite sumZ_cons. cbn [fst snd].
      set (a := (if w then Z.of_nat c else 1) * sumZ (map (cnt N w n) (kids N p d))).
      assert (A : 0 <= a).
      { pose proof (@sumZ_nonneg _ (cnt N w n) (kids N p d) (fun q _ => cnt_nonneg N w n q)). unfold a. destruct w; nia. }
      assert (S : 0 <= sumZ (map (fun e => (if w then Z.of_nat (snd e) else 1) * sumZ (map (cnt N w n) (kids N p (fst e)))) l)).
      { apply sumZ_nonneg. intros e I. destruct (V e (or_intror I)) as (_ & X).
        pose proof (@sumZ_nonneg _ (cnt N w n) (kids N p (fst e)) (fun q _ => cnt_nonneg N w n q)). destruct w; nia. }
      destruct (Z_lt_le_dec (t + a) M) as [L|L]; [|rewrite chk_ge by lia; rewrite chk_ge by lia; reflexivity].
      rewrite chk_lt by lia. rewrite bind_ret, IHl by (try lia; intros e I; apply V; right; auto). f_equal. lia. }
  rewrite H by (try (pose proof M_pos; lia); intros e I; apply all_21_valid, I). reflexivity.
Qed.
Lemma mfold_each {A S} (f : S -> A -> res S) l : forall s r, mfold f l s = Ret r -> forall a, In a l -> exists s' r', f s' a = Ret r'.
Proof.
  induction l as [|b l IH]; intros s r E a I; [destruct I|]. cbn [mfold] in E. apply bind_inv in E. destruct E as (s1 & E1 & E).
  destruct I as [<-|I]; eauto.
Qed.
Lemma perft_good m N w n : forall p r, wf N p -> perft m N p n w = Ret r -> good m N n p.
Proof.
  induction n as [|n IH]; intros p r W E; cbn [good]; auto. cbn [perft] in E. rewrite all_21_ret, bind_ret in E.
  assert (K : forall d, valid_dice d -> exists l, classic_positions m N p d = Ret l /\ forall q, In q l -> exists r, perft m N q n w = Ret r).
  { intros d V. destruct (C28_all_21 m) as (l21 & E21 & _ & H21). rewrite all_21_ret in E21. inversion E21; subst l21.
    assert (I : In (d, multiplicity d) ALL_21) by (apply H21; auto).
    destruct (mfold_each _ _ _ E _ I) as (s' & r' & X). cbv zeta in X. apply bind_inv in X. destruct X as (l & El & X).
    exists l. split; auto. intros q Iq. destruct (mfold_each _ _ _ X _ Iq) as (s2 & r2 & Y). apply bind_inv in Y. destruct Y as (v & Ev & _). eauto. }
  split.
  - intros ->. destruct (K (Double 1)) as (l & El & _); [cbn; unfold valid_die; lia|].
    assert (V : valid_dice (Double 1)) by (cbn; unfold valid_die; lia). apply (@kids_any _ _ _ _ _ W V El). auto.
  - intros d q V I. destruct (K d V) as (l & El & H). destruct (@kids_any _ _ _ _ _ W V El) as (-> & _). destruct (H q I) as (r2 & Er).
    eapply IH; eauto. apply (@kids_wf _ _ _ _ W V I).
Qed.

(** ** Lines *)
Fixpoint lines {T} (N : Z) (ts : list (T * dice)) (n : nat) (p : position) : list (list (T * nat)) :=
  match n with
  | O => [[]]
  | S n' => flat_map (fun td => flat_map (fun iq => map (cons (fst td, fst iq)) (lines N ts n' (snd iq)))
              (combine (seq 0 (length (kids N p (snd td)))) (kids N p (snd td)))) ts
  end.
Lemma in_numbered {A} (l : list A) : forall k i a, In (i, a) (combine (seq k (length l)) l) <-> (k <= i)%nat /\ nth_error l (i - k) = Some a.
Proof.
  induction l as [|b l IH]; intros k i a; cbn [length seq combine].
  - split; [intros []|]. intros (_ & E). destruct (i - k)%nat; discriminate.
  - cbn [In]. rewrite IH. split.
    + intros [E|(L & E)]; [inversion E; subst; rewrite Nat.sub_diag; auto|].
      split; [lia|]. replace (i - k)%nat with (S (i - S k)) by lia. exact E.
    + intros (L & E). destruct (Nat.eq_dec i k) as [->|N]; [rewrite Nat.sub_diag in E; cbn in E; left; congruence|].
      right. split; [lia|]. replace (i - k)%nat with (S (i - S k)) in E by lia. exact E.
Qed.
Lemma combine_length_seq {A} (l : list A) k : map snd (combine (seq k (length l)) l) = l.
Proof. revert k. induction l as [|a l IH]; intros k; cbn; f_equal; auto. Qed.
Lemma combine_nodup {A} (l : list A) k : NoDup (map fst (combine (seq k (length l)) l)).
Proof.
  replace (map fst (combine (seq k (length l)) l)) with (seq k (length l)); [apply seq_NoDup|].
  revert k. induction l as [|a l IH]; intros k; cbn; f_equal; auto.
Qed.
Lemma lines_in {T} (roll : T -> dice -> Prop) m N (ts : list (T * dice)) :
  (forall t d, In (t, d) ts <-> roll t d) -> (forall t d, roll t d -> valid_dice d) ->
  forall n p s, wf N p -> good m N n p -> In s (lines N ts n p) <-> length s = n /\ exists r, line roll m N p s r.
Proof.
  intros HT HV. induction n as [|n IH]; intros p s W G; cbn [lines].
  - split.
    + intros [<-|[]]. split; auto. exists p. constructor.
    + intros (L & _). destruct s; [left; auto|discriminate].
  - destruct G as (O & G).
    assert (EL : forall d, valid_dice d -> classic_positions m N p d = Ret (kids N p d)).
    { intros d V. destruct m; [apply kids_debug; auto|apply kids_release; auto]. }
    rewrite in_flat_map. split.
    + intros ((t, d) & It & I). cbn [fst snd] in I. apply in_flat_map in I. destruct I as ((i, q) & Iq & I). cbn [fst snd] in I.
      apply in_map_iff in I. destruct I as (s' & <- & I). apply HT in It. pose proof (HV _ _ It) as V.
      apply in_numbered in Iq. destruct Iq as (_ & Iq). rewrite Nat.sub_0_r in Iq. pose proof (nth_error_In _ _ Iq) as Ik.
      apply IH in I; [|apply (@kids_wf _ _ _ _ W V Ik)|apply (G d q V Ik)]. destruct I as (L & r & Ln). split; [cbn; lia|]. exists r.
      eapply line_turn; eauto.
    + intros (L & r & Ln). inversion Ln as [|? t d l i q rest ? R El Nq Lq]; subst; [discriminate|].
      pose proof (HV _ _ R) as V. rewrite (EL d V) in El. inversion El; subst l. pose proof (nth_error_In _ _ Nq) as Ik.
      exists (t, d). split; [apply HT; auto|]. cbn [fst snd]. apply in_flat_map. exists (i, q). split.
      { apply in_numbered. rewrite Nat.sub_0_r. split; [lia|auto]. }
      cbn [fst snd]. apply in_map_iff. exists rest. split; auto. apply IH; [apply (@kids_wf _ _ _ _ W V Ik)|apply (G d q V Ik)|]. cbn in L. split; [lia|eauto].
Qed.
Lemma nodup_fst_eq {A B} (l : list (A * B)) x y : NoDup (map fst l) -> In x l -> In y l -> fst x = fst y -> x = y.
Proof.
  induction l as [|c l IH]; cbn [map]; intros N Ix Iy E; [destruct Ix|]. inversion N as [|? ? N1 N2]; subst.
  destruct Ix as [->|Ix]; destruct Iy as [->|Iy]; auto.
  - exfalso. apply N1. rewrite E. apply in_map, Iy.
  - exfalso. apply N1. rewrite <- E. apply in_map, Ix.
Qed.
Lemma nodup_fst {A B} (l : list (A * B)) : NoDup (map fst l) -> NoDup l.
Proof. apply NoDup_map_inv. Qed.
Lemma lines_nodup {T} N (ts : list (T * dice)) : NoDup (map fst ts) -> forall n p, NoDup (lines N ts n p).
Proof.
  intros NT. induction n as [|n IH]; intros p; cbn [lines]; [constructor; [intros []|constructor]|].
  assert (NI : forall (t : T) (l : list position), NoDup (flat_map (fun iq => map (cons (t, fst iq)) (lines N ts n (snd iq))) (combine (seq 0 (length l)) l))).
  { intros t l. apply NoDup_flat_prod.
    - apply nodup_fst, combine_nodup.
    - intros (i, q) _. apply FinFun.Injective_map_NoDup; [|apply IH]. intros a b E. inversion E; auto.
    - intros (i, q) (j, q') s I J A B. apply in_map_iff in A, B. destruct A as (a & <- & _). destruct B as (b & E & _). inversion E; subst.
      apply (@nodup_fst_eq _ _ (combine (seq 0 (length l)) l)); auto. apply combine_nodup. }
  apply NoDup_flat_prod; [apply nodup_fst, NT|intros; apply NI|].
  intros (t, d) (t', d') s I J A B. cbn [fst snd] in *. apply in_flat_map in A, B. destruct A as (x & _ & A). destruct B as (y & _ & B).
  apply in_map_iff in A, B. destruct A as (a & <- & _). destruct B as (b & E & _). inversion E; subst.
  apply (@nodup_fst_eq _ _ ts); auto.
Qed.
Lemma flat_length {A B} (f : A -> list B) l : Z.of_nat (length (flat_map f l)) = sumZ (map (fun a => Z.of_nat (length (f a))) l).
Proof. induction l as [|a l IH]; auto. cbn [flat_map]. rewrite app_length, Nat2Z.inj_add, IH. reflexivity. Qed.
Lemma sumZ_ext {A} (f g : A -> Z) l : (forall a, In a l -> f a = g a) -> sumZ (map f l) = sumZ (map g l).
Proof. intros H. f_equal. apply map_ext_in, H. Qed.
Lemma lines_length {T} N (ts : list (T * dice)) (w : bool) :
  (forall f : dice -> Z, sumZ (map (fun td : T * dice => f (snd td)) ts) = sumZ (map (fun e : dice * nat => (if w then Z.of_nat (snd e) else 1) * f (fst e)) ALL_21)) ->
  forall n p, Z.of_nat (length (lines N ts n p)) = cnt N w n p.
Proof.
  intros H. induction n as [|n IH]; intros p; [reflexivity|]. cbn [lines cnt].
  rewrite flat_length.
  rewrite (sumZ_ext _ (fun td : T * dice => sumZ (map (cnt N w n) (kids N p (snd td))))).
  2:{ intros (t, d) _. cbn [fst snd]. rewrite flat_length. rewrite <- (combine_length_seq (kids N p d) 0) at 3. rewrite map_map.
      apply sumZ_ext. intros (i, q) _. cbn [fst snd]. rewrite map_length. apply IH. }
  exact (H (fun d => sumZ (map (cnt N w n) (kids N p d)))).
Qed.

(** The two ways to roll. *)
Definition rolls21 : list (dice * dice) := map (fun e => (fst e, fst e)) ALL_21.
Definition throws36 : list ((nat * nat) * dice) :=
  map (fun t => (t, if Nat.eqb (fst t) (snd t) then Double (fst t) else Mixed (Nat.max (fst t) (snd t)) (Nat.min (fst t) (snd t)))) throws.
Lemma rolls21_spec t d : In (t, d) rolls21 <-> by_roll t d.
Proof.
  destruct (C28_all_21 Debug) as (l & E & _ & H). rewrite all_21_ret in E. inversion E; subst l.
  unfold rolls21, by_roll. rewrite in_map_iff. split.
  - intros ((d', w) & X & I). inversion X; subst. split; auto. apply (H d w). auto.
  - intros (-> & V). exists (d, multiplicity d). split; auto. apply H. auto.
Qed.
Lemma throws36_spec t d : In (t, d) throws36 <-> by_throw t d.
Proof.
  unfold throws36, by_throw. rewrite in_map_iff. destruct t as (a, b). cbn [fst snd]. split.
  - intros ((a', b') & X & I). inversion X; subst. clear X. cbn [fst snd]. unfold throws in I. apply in_prod_iff in I.
    rewrite !in_seq in I. split; [unfold valid_die; lia|]. split; [unfold valid_die; lia|].
    destruct (Nat.eqb_spec a b) as [->|N]; cbn [shows]; [rewrite Nat.eqb_refl; auto|].
    destruct (Nat.lt_ge_cases a b) as [L|L].
    + rewrite Nat.max_r, Nat.min_l by lia. rewrite !Nat.eqb_refl. rewrite (proj2 (Nat.ltb_lt a b) L), orb_true_r. reflexivity.
    + rewrite Nat.max_l, Nat.min_r by lia. rewrite !Nat.eqb_refl. rewrite (proj2 (Nat.ltb_lt b a)) by lia. reflexivity.
  - intros (A & B & S). exists (a, b). split.
    + cbn [fst snd]. f_equal. destruct d as [x y|x]; cbn [shows] in S.
      * apply andb_true_iff in S. destruct S as (L & S). apply Nat.ltb_lt in L. apply orb_true_iff in S.
        destruct S as [S|S]; apply andb_true_iff in S; destruct S as (E1 & E2); apply Nat.eqb_eq in E1, E2; subst a b.
        -- rewrite (proj2 (Nat.eqb_neq x y)) by lia. f_equal; lia.
        -- rewrite (proj2 (Nat.eqb_neq y x)) by lia. f_equal; lia.
      * apply andb_true_iff in S. destruct S as (E1 & E2). apply Nat.eqb_eq in E1, E2. subst. rewrite Nat.eqb_refl. reflexivity.
    + unfold throws. apply in_prod_iff. rewrite !in_seq. unfold valid_die in *. lia.
Qed.
Lemma rolls21_nodup : NoDup (map fst rolls21).
Proof.
  destruct (C28_all_21 Debug) as (l & E & N & _). rewrite all_21_ret in E. inversion E; subst l.
  unfold rolls21. rewrite map_map. cbn [fst]. exact N.
Qed.
Lemma throws36_nodup : NoDup (map fst throws36).
Proof.
  unfold throws36. rewrite map_map. cbn [fst]. rewrite map_id. unfold throws.
  assert (P : forall l1 l2 : list nat, NoDup l1 -> NoDup l2 -> NoDup (list_prod l1 l2)).
  { induction l1 as [|a l1 IH]; intros l2 N1 N2; cbn [list_prod]; [constructor|]. inversion N1 as [|? ? N N']; subst.
    assert (NA : forall (x y : list (nat * nat)), NoDup x -> NoDup y -> (forall z, In z x -> ~ In z y) -> NoDup (x ++ y)).
    { induction x as [|z x IHx]; cbn [app]; intros y X Y D; auto. inversion X; subst. constructor.
      - rewrite in_app_iff. intros [?|?]; [auto|]. eapply D; [left; reflexivity|auto].
      - apply IHx; auto. intros z' I. apply D. right. auto. }
    apply NA; [|apply IH; auto|].
    - apply FinFun.Injective_map_NoDup; auto. intros u v E. inversion E; auto.
    - intros (u, v) I J. apply in_map_iff in I. destruct I as (w & E & _). inversion E; subst. apply in_prod_iff in J. tauto. }
  apply P; apply seq_NoDup.
Qed.
Lemma rolls21_sum (f : dice -> Z) : sumZ (map (fun td => f (snd td)) rolls21) = sumZ (map (fun e => 1 * f (fst e)) ALL_21).
Proof. unfold rolls21. rewrite map_map. cbn [snd]. apply sumZ_ext. intros. lia. Qed.
Lemma throws36_sum (f : dice -> Z) : sumZ (map (fun td => f (snd td)) throws36) = sumZ (map (fun e => Z.of_nat (snd e) * f (fst e)) ALL_21).
Proof.
  let t := eval vm_compute in throws36 in change throws36 with t.
  unfold ALL_21. cbn [map snd fst sumZ fold_right]. change (Z.of_nat 1) with 1. change (Z.of_nat 2) with 2. lia.
Qed.
