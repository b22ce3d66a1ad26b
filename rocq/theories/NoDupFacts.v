(** When the move lists repeat a position. *)
From Coq Require FinFun.
From Verif Require Export MoveGenProof SpecLists.
Open Scope Z_scope.

Lemma nodup_flat {A B} (f : A -> list B) l : NoDup l -> (forall a, In a l -> NoDup (f a)) ->
  (forall a b x, In a l -> In b l -> In x (f a) -> In x (f b) -> a = b) -> NoDup (flat_map f l).
Proof.
  induction 1 as [|a l Na Nl IH]; intros F D; [constructor|]. cbn [flat_map].
  assert (N2 : NoDup (flat_map f l)).
  { apply IH; [intros; apply F; right; auto|]. intros b c x Ib Ic. apply D; right; auto. }
  assert (N1 : NoDup (f a)) by (apply F; left; auto).
  assert (X : forall x, In x (f a) -> ~ In x (flat_map f l)).
  { intros x I J. apply in_flat_map in J. destruct J as (b & Ib & Jb). apply Na.
    rewrite (D a b x); auto; [left; auto|right; auto]. }
  clear -N1 N2 X. induction N1 as [|y k Ny Nk IH]; [auto|]. cbn [app]. constructor.
  - rewrite in_app_iff. intros [I|I]; auto. apply (X y); auto. left. auto.
  - apply IH. intros x I. apply X. right. auto.
Qed.
Lemma nodup_app {A} (k l : list A) : NoDup k -> NoDup l -> (forall x, In x k -> ~ In x l) -> NoDup (k ++ l).
Proof.
  induction 1 as [|y k Ny Nk IH]; intros Nl X; [auto|]. cbn [app]. constructor.
  - rewrite in_app_iff. intros [I|I]; auto. apply (X y); auto. left. auto.
  - apply IH; auto. intros x I. apply X. right. auto.
Qed.
Lemma nodup_range lo hi : NoDup (range lo hi).
Proof. unfold range. apply seq_NoDup. Qed.
Lemma nodup_one {A} (a : A) : NoDup [a].
Proof. constructor; [intros []|constructor]. Qed.

(** ** Moves with one die *)
Section Top.
Variables (d : nat).
Hypothesis V : valid_die d.
Lemma mv_inj p a b : length (pips p) = 26%nat -> (1 <= a <= 25)%nat -> (1 <= b <= 25)%nat -> mv p d a = mv p d b -> a = b.
Proof.
  destruct V. intros L A B E. destruct (Nat.lt_trichotomy a b) as [X|[X|X]]; auto; exfalso.
  - assert (Y : pt (mv p d a) b = pt (mv p d b) b) by congruence. rewrite pt_mv_high, pt_mv_from in Y by lia. lia.
  - assert (Y : pt (mv p d a) a = pt (mv p d b) a) by congruence. rewrite pt_mv_from, pt_mv_high in Y by lia. lia.
Qed.
Lemma tp_nodup p rng : length (pips p) = 26%nat -> NoDup rng -> (forall i, In i rng -> (1 <= i <= 25)%nat) -> NoDup (flat_map (tp p d) rng).
Proof.
  intros L N H. apply nodup_flat; auto.
  - intros a _. unfold tp. destruct (cm p d a); [apply nodup_one|constructor].
  - intros a b x Ia Ib. unfold tp. destruct (cm p d a); [|intros []]. destruct (cm p d b); [|intros _ []].
    intros [<-|[]] [E|[]]. apply (@mv_inj p a b L); auto.
Qed.
(** Nothing above the highest checker moved changes; there, checkers leave. *)
Lemma run_top N : forall l p hi, wf N p -> legal_seq d l p -> desc hi l ->
  (forall i, (hi < i)%nat -> pt (run d l p) i = pt p i) /\ ((1 <= hi)%nat -> pt (run d l p) hi <= pt p hi).
Proof.
  destruct V as (V1 & V2). induction l as [|a l IH]; intros p hi W L D; cbn [run].
  - split; auto. lia.
  - destruct L as (M & L), D as (Da & D). pose proof (may_move_range M) as R. pose proof (wf_len W) as Hl.
    destruct (IH (mv p d a) a (may_wf W V M) L D) as (A & B). split.
    + intros i Hi. rewrite A by lia. apply pt_mv_high; lia.
    + intros H1. destruct (Nat.eq_dec hi a) as [->|Ne].
      * specialize (B ltac:(lia)). rewrite pt_mv_from in B by lia. lia.
      * rewrite A by lia. rewrite pt_mv_high by lia. lia.
Qed.
Lemma gen_nodup N : forall n hi p, wf N p -> pt p 25 = 0 -> (hi <= 24)%nat -> NoDup (gen d n hi p).
Proof.
  destruct V as (V1 & V2). induction n as [|n IH]; intros hi p W B Hh; cbn [gen]; [apply nodup_one|].
  pose proof (wf_len W) as Hl.
  assert (C : forall a x, In a (range (smallest_pip_to_check p d) (hi + 1)) -> In x (if cm p d a then gen d n a (mv p d a) else []) ->
     (a <= hi)%nat /\ may_move p d a /\ In x (gen d n a (mv p d a))).
  { intros a x Ia Ix. apply in_range in Ia. destruct (cm p d a) eqn:E; [|destruct Ix]. split; [lia|]. split; auto.
    eapply sp_may; eauto; lia. }
  apply nodup_flat.
  - apply nodup_range.
  - intros a Ia. destruct (cm p d a) eqn:E; [|constructor]. apply in_range in Ia.
    assert (M : may_move p d a) by (eapply sp_may; eauto; lia).
    apply IH; [apply may_wf; auto|eapply nobar_after; eauto|lia].
  - intros a b x Ia Ib Xa Xb. destruct (C a x Ia Xa) as (Ha & Ma & Ga). destruct (C b x Ib Xb) as (Hb & Mb & Gb).
    pose proof (may_move_range Ma) as Ra. pose proof (may_move_range Mb) as Rb.
    assert (Y : forall c, (c <= hi)%nat -> may_move p d c -> In x (gen d n c (mv p d c)) ->
       (forall i, (c < i)%nat -> pt x i = pt p i) /\ pt x c < pt p c).
    { intros c Hc Mc Gc. pose proof (may_move_range Mc) as Rc.
      apply (@in_gen d N V n c _ _ (may_wf W V Mc)) in Gc; [|eapply nobar_after; eauto|lia].
      destruct Gc as (l & _ & L & D & ->). destruct (@run_top N l (mv p d c) c (may_wf W V Mc) L D) as (A1 & A2). split.
      - intros i Hi. rewrite A1 by auto. apply pt_mv_high; lia.
      - specialize (A2 ltac:(lia)). rewrite pt_mv_from in A2 by lia. lia. }
    destruct (Y a Ha Ma Ga) as (Y1 & Y2), (Y b Hb Mb Gb) as (Y3 & Y4).
    destruct (Nat.lt_trichotomy a b) as [X|[X|X]]; auto; exfalso.
    + rewrite (Y1 b X) in Y4. lia.
    + rewrite (Y3 a X) in Y2. lia.
Qed.
End Top.

Lemma double_nodup N m p d l : wf N p -> valid_die d -> all_positions_after_double_move m p d = Ret l -> NoDup l.
Proof.
  intros W V E. destruct (double_correct_shape m W V) as (l' & E' & _ & S & _). assert (l' = l) as -> by congruence.
  destruct S as [(r & ->)|(nr & q & _ & Wq & Bq & ->)]; [apply nodup_one|]. eapply gen_nodup; eauto.
Qed.

(** ** Moves with two different dice *)
Section Mixed.
Variables (N : Z) (p : position) (B S : nat).
Hypotheses (W : wf N p) (VB : valid_die B) (VS : valid_die S) (HBS : (S < B)%nat).
Let Hl : length (pips p) = 26%nat := wf_len W.

(** A play whose first checker is the higher one. *)
Lemma top_two d1 d2 a b : valid_die d1 -> valid_die d2 -> may_move p d1 a -> may_move (mv p d1 a) d2 b -> (b <= a)%nat ->
  (forall i, (a < i)%nat -> pt (mv (mv p d1 a) d2 b) i = pt p i) /\
  pt (mv (mv p d1 a) d2 b) a = pt p a - (if (b =? a)%nat then 2 else 1).
Proof.
  intros V1 V2 M1 M2 L. pose proof (may_move_range M1). pose proof (may_move_range M2). pose proof (@mv_length p d1 a Hl) as Hl'.
  destruct V1, V2. split.
  - intros i Hi. rewrite !pt_mv_high by (auto; lia). auto.
  - destruct (Nat.eqb_spec b a) as [->|Ne].
    + rewrite pt_mv_from by (auto; lia). rewrite pt_mv_from by (auto; lia). lia.
    + rewrite pt_mv_high by (auto; lia). rewrite pt_mv_from by (auto; lia). lia.
Qed.
Lemma same_top d1 d2 e1 e2 a b a' b' : valid_die d1 -> valid_die d2 -> valid_die e1 -> valid_die e2 ->
  may_move p d1 a -> may_move (mv p d1 a) d2 b -> (b <= a)%nat ->
  may_move p e1 a' -> may_move (mv p e1 a') e2 b' -> (b' <= a')%nat ->
  mv (mv p d1 a) d2 b = mv (mv p e1 a') e2 b' -> a = a' /\ (b = a <-> b' = a').
Proof.
  intros V1 V2 U1 U2 M1 M2 L M1' M2' L' E.
  destruct (top_two V1 V2 M1 M2 L) as (A1 & A2), (top_two U1 U2 M1' M2' L') as (A1' & A2'). rewrite E in A1, A2.
  destruct (Nat.lt_trichotomy a a') as [X|[X|X]].
  - rewrite (A1 a' X) in A2'. destruct (b' =? a')%nat; lia.
  - split; auto. subst a'. rewrite A2 in A2'. destruct (Nat.eqb_spec b a), (Nat.eqb_spec b' a); lia.
  - rewrite (A1' a X) in A2. destruct (b =? a)%nat; lia.
Qed.

(** The same result in the two orders: both checkers are borne off, or one checker makes both moves. *)
Lemma cross a b b' : may_move p S a -> may_move (mv p S a) B b -> (b < a)%nat ->
  may_move p B a -> may_move (mv p B a) S b' -> (b' < a)%nat ->
  mv (mv p S a) B b = mv (mv p B a) S b' ->
  (a <= S)%nat \/ ((B < a)%nat /\ b' = (a - B)%nat /\ 0 <= pt p (a - B) /\ 0 <= pt p (a - S)).
Proof.
  intros M1 M2 L M1' M2' L' E. destruct (Nat.le_gt_cases a S) as [X|X]; auto. right.
  pose proof (may_move_range M1) as R. pose proof (may_move_range M2) as Rb. pose proof (may_move_range M2') as Rb'.
  pose proof (@mv_length p S a Hl) as HS. pose proof (@mv_length p B a Hl) as HB. pose proof VB as (B1 & B2). pose proof VS as (S1 & S2).
  assert (Q : forall i, pt (mv (mv p S a) B b) i = pt (mv (mv p B a) S b') i) by (intros; rewrite E; auto).
  destruct M1 as (_ & P1 & _ & U1 & _). specialize (U1 X). destruct M1' as (_ & _ & _ & U2 & _).
  destruct M2 as (_ & P2 & _). destruct M2' as (_ & P2' & _).
  pose proof (@pt_mv_land p S a Hl ltac:(lia) ltac:(lia) X) as LS.
  (* the checker moved first with S goes on *)
  assert (Eb : b = (a - S)%nat).
  { destruct (Nat.eq_dec b (a - S)) as [Y|Y]; auto. exfalso. pose proof (Q (a - S)%nat) as Z.
    rewrite (@pt_mv_other (mv p S a) B b HS ltac:(lia) ltac:(lia)) in Z by lia. rewrite LS in Z.
    destruct (Nat.eq_dec b' (a - S)) as [Y'|Y'].
    - assert (Z2 : pt (mv (mv p B a) S b') (a - S) = pt (mv p B a) (a - S) - 1) by (rewrite <- Y'; apply pt_mv_from; auto; lia). rewrite Z2 in Z. rewrite (@pt_mv_other p B a) in Z by (auto; lia).
      destruct (Z.eqb_spec (pt p (a - S)) (-1)); lia.
    - rewrite (@pt_mv_other (mv p B a) S b') in Z by (auto; lia). rewrite (@pt_mv_other p B a) in Z by (auto; lia).
      destruct (Z.eqb_spec (pt p (a - S)) (-1)); lia. }
  subst b.
  destruct (Nat.le_gt_cases a B) as [Y|Y].
  { exfalso. destruct (Nat.eq_dec b' (a - S)) as [Y'|Y'].
    - subst b'. pose proof (Q (a - S)%nat) as Z. rewrite !pt_mv_from in Z by (auto; lia). rewrite LS in Z.
      rewrite (@pt_mv_other p B a) in Z by (auto; lia). destruct (Z.eqb_spec (pt p (a - S)) (-1)); lia.
    - pose proof (Q b') as Z. rewrite (@pt_mv_from (mv p B a)) in Z by (auto; lia). rewrite (@pt_mv_other p B a) in Z by (auto; lia).
      rewrite (@pt_mv_other (mv p S a) B) in Z by (auto; lia). rewrite (@pt_mv_other p S a) in Z by (auto; lia). lia. }
  split; auto. specialize (U2 Y). pose proof (@pt_mv_land p B a Hl ltac:(lia) ltac:(lia) Y) as LB.
  assert (Eb : b' = (a - B)%nat).
  { destruct (Nat.eq_dec b' (a - B)) as [Z|Z]; auto. exfalso. pose proof (Q (a - B)%nat) as Z'.
    pose proof (@pt_mv_ge (mv p B a) S b' HB ltac:(lia) ltac:(lia) (a - B)%nat ltac:(lia) ltac:(lia)) as Ge. rewrite LB in Ge.
    rewrite (@pt_mv_other (mv p S a) B) in Z' by (auto; lia). rewrite (@pt_mv_other p S a) in Z' by (auto; lia).
    destruct (Z.eqb_spec (pt p (a - B)) (-1)); lia. }
  split; auto. subst b'. split.
  - pose proof (Q (a - B)%nat) as Z. rewrite (@pt_mv_from (mv p B a)) in Z by (auto; lia). rewrite LB in Z.
    rewrite (@pt_mv_other (mv p S a) B) in Z by (auto; lia). rewrite (@pt_mv_other p S a) in Z by (auto; lia).
    destruct (Z.eqb_spec (pt p (a - B)) (-1)); lia.
  - pose proof (Q (a - S)%nat) as Z. rewrite (@pt_mv_from (mv p S a)) in Z by (auto; lia). rewrite LS in Z.
    rewrite (@pt_mv_other (mv p B a) S) in Z by (auto; lia). rewrite (@pt_mv_other p B a) in Z by (auto; lia).
    destruct (Z.eqb_spec (pt p (a - S)) (-1)); lia.
Qed.
End Mixed.

Lemma nodup_same {A} (l : list A) q : NoDup l -> (forall x, In x l -> x = q) -> In q l -> l = [q].
Proof.
  intros Nd H I. destruct l as [|x [|y l]]; [destruct I|f_equal; apply H; left; auto|].
  exfalso. rewrite (H x), (H y) in Nd by (cbn; auto). inversion Nd as [|? ? X _]; subst. apply X. left. auto.
Qed.

Section Bar0.
Variables (N : Z) (p : position) (B S : nat).
Hypotheses (W : wf N p) (VB : valid_die B) (VS : valid_die S) (HBS : (S < B)%nat) (Bar : pt p 25 = 0).
Let Hl : length (pips p) = 26%nat := wf_len W.

Lemma sp_range q d i : wf N q -> valid_die d -> (smallest_pip_to_check q d <= i)%nat -> (i <= 25)%nat -> (1 <= i <= 25)%nat.
Proof. intros Wq V H1 H2. pose proof (smallest_pip_pos Wq V). lia. Qed.

Lemma loop2_nodup d1 d2 rng (rng2 : nat -> list nat) : valid_die d1 -> valid_die d2 -> NoDup rng -> (forall a, NoDup (rng2 a)) ->
  (forall a, In a rng -> cm p d1 a = true -> may_move p d1 a) ->
  (forall a b, may_move p d1 a -> In b (rng2 a) -> (1 <= b <= a)%nat /\ (cm (mv p d1 a) d2 b = true -> may_move (mv p d1 a) d2 b)) ->
  NoDup (flat_map (fun i => if cm p d1 i then flat_map (tp (mv p d1 i) d2) (rng2 i) else []) rng).
Proof.
  intros V1 V2 N1 N2 H1 H2. apply nodup_flat; auto.
  - intros a Ia. destruct (cm p d1 a) eqn:E; [|constructor]. specialize (H1 a Ia E). pose proof (may_move_range H1).
    apply tp_nodup; auto; [apply mv_length; auto|]. intros i Hi. destruct (H2 a i H1 Hi). lia.
  - intros a b x Ia Ib Xa Xb. destruct (cm p d1 a) eqn:Ea; [|destruct Xa]. destruct (cm p d1 b) eqn:Eb; [|destruct Xb].
    apply in_tp in Xa, Xb. destruct Xa as (a2 & Ja & Ca & ->), Xb as (b2 & Jb & Cb & E).
    pose proof (H1 a Ia Ea) as Ma. pose proof (H1 b Ib Eb) as Mb. destruct (H2 a a2 Ma Ja) as (La & Ma2), (H2 b b2 Mb Jb) as (Lb & Mb2).
    destruct (@same_top N p B S W HBS d1 d2 d1 d2 a a2 b b2) as (X & _); auto; lia.
Qed.
Lemma small_first_nodup : NoDup (small_first p B S).
Proof.
  unfold small_first. apply loop2_nodup; auto.
  - apply NoDup_rev, nodup_range.
  - intros a. apply NoDup_rev, nodup_range.
  - intros a Ia E. rewrite <- in_rev, in_range in Ia. eapply sp_may; eauto; lia.
  - intros a b M Ib. rewrite <- in_rev, in_range in Ib. pose proof (may_wf W VS M) as W'. pose proof (may_nobar M ltac:(lia)).
    pose proof (smallest_pip_pos W' VB). split; [lia|]. intros C. eapply sp_may; eauto; [|lia|lia]. eapply bar_after; eauto.
Qed.
Lemma big_first_nodup : NoDup (big_first p B S).
Proof.
  unfold big_first. apply loop2_nodup; auto.
  - apply nodup_range.
  - intros a. unfold big_rng. destruct (outcomes p B S a).
    + cbn [range]. replace (range 0 0) with (@nil nat) by reflexivity. rewrite app_nil_r. apply nodup_range.
    + apply nodup_app; try apply nodup_range. intros x I J. apply in_range in I, J. lia.
  - intros a Ia E. rewrite in_range in Ia. eapply sp_may; eauto; lia.
  - intros a b M Ib. apply (in_big_rng W HBS) in Ib. pose proof (may_wf W VB M) as W'. pose proof (may_nobar M ltac:(lia)).
    pose proof (smallest_pip_pos W' VS). split; [lia|]. intros C. eapply sp_may; eauto; [|lia|lia]. eapply bar_after; eauto.
Qed.

Lemma off_two a b : may_move p S a -> may_move (mv p S a) B b -> (b < a)%nat -> (a <= S)%nat -> two_left S p.
Proof.
  intros M1 M2 L LS. pose proof VB as (B1 & B2). pose proof VS as (S1 & S2). pose proof (@mv_length p S a Hl).
  destruct M1 as (R1 & P1 & _). destruct M2 as (R2 & P2 & _ & _ & H2). destruct (H2 ltac:(lia)) as (_ & H3). specialize (H3 ltac:(lia)).
  exists a, b. split; [lia|]. split; [lia|].
  assert (A : pt p a = 1).
  { specialize (H3 a ltac:(lia)). rewrite pt_mv_from in H3 by (auto; lia). lia. }
  split; auto. rewrite pt_mv_other in P2 by (auto; lia). split; auto.
  intros i Hi Ne. specialize (H3 i Hi). rewrite pt_mv_other in H3 by (auto; lia). auto.
Qed.

Lemma bar0_nodup : ~ two_left S p -> NoDup (small_first p B S ++ big_first p B S).
Proof.
  intros H. apply nodup_app; [apply small_first_nodup|apply big_first_nodup|]. intros x I J.
  apply (in_small_first W VB VS HBS Bar) in I. destruct I as (a & b & M1 & M2 & L & ->).
  apply (in_big_first W VB VS HBS Bar) in J. destruct J as (a' & b' & M1' & M2' & L' & O & E).
  destruct (@same_top N p B S W HBS S B B S a b a' b') as (X & Y); auto; try lia. subst a'.
  assert (Lb : (b < a)%nat) by (destruct (Nat.eq_dec b a) as [Z|Z]; [apply Y in Z; lia|lia]).
  destruct (@cross N p B S W VB VS HBS a b b') as [Z|(Z1 & Z2 & Z3 & Z4)]; auto.
  - apply H. apply (@off_two a b); auto.
  - destruct O as [O|O]; [|lia]. unfold outcomes in O. apply andb_true_iff in O. destruct O as (_ & O).
    apply orb_true_iff in O. destruct O as [O|O]; apply Z.ltb_lt in O; lia.
Qed.

Lemma bar0_twice : two_left S p -> exists q, small_first p B S ++ big_first p B S = [q; q].
Proof.
  intros (a & b & L & LS & A & Pb & H). pose proof VB as (B1 & B2). pose proof VS as (S1 & S2).
  assert (One : forall d, valid_die d -> (S <= d)%nat -> forall c, may_move p d c <-> c = a).
  { intros d (D1 & D2) Ld c. split.
    - intros (R & P & _ & _ & Hc). destruct (Nat.eq_dec c a) as [E|E]; auto. exfalso.
      destruct (Nat.le_gt_cases c b) as [X|X]; [|specialize (H c ltac:(lia) E); lia].
      destruct (Hc ltac:(lia)) as (_ & Hd). specialize (Hd ltac:(lia) a ltac:(lia)). lia.
    - intros ->. split; [lia|]. split; [lia|]. split; [lia|]. split; [lia|]. intros _. split; intros; apply H; lia. }
  assert (Two : forall d e, valid_die d -> (S <= d)%nat -> valid_die e -> (S <= e)%nat -> forall c, may_move (mv p d a) e c <-> c = b).
  { intros d e (D1 & D2) Ld (E1 & E2) Le c.
    assert (O : forall i, (1 <= i)%nat -> i <> a -> pt (mv p d a) i = pt p i) by (intros; apply pt_mv_other; auto; lia).
    assert (F : pt (mv p d a) a = 0) by (rewrite pt_mv_from by (auto; lia); lia).
    assert (Up : forall i, (b < i <= 25)%nat -> pt (mv p d a) i <= 0).
    { intros i Hi. destruct (Nat.eq_dec i a) as [->|Ne]; [lia|]. rewrite O by lia. apply H; auto. }
    split.
    - intros (R & P & _ & _ & Hc). destruct (Nat.lt_trichotomy c b) as [X|[X|X]]; auto; exfalso.
      + destruct (Hc ltac:(lia)) as (_ & Hd). specialize (Hd ltac:(lia) b ltac:(lia)). rewrite O in Hd by lia. lia.
      + specialize (Up c ltac:(lia)). lia.
    - intros ->. split; [lia|]. split; [rewrite O by lia; auto|]. split; [intros; apply Up; lia|]. split; [lia|].
      intros _. split; intros; apply Up; lia. }
  set (q := mv (mv p S a) B b).
  assert (Q : mv (mv p B a) S b = q).
  { unfold q, mv. rewrite !(proj2 (Nat.ltb_ge _ _)) by lia. reflexivity. }
  exists q. change [q; q] with ([q] ++ [q]). f_equal; apply nodup_same; auto using small_first_nodup, big_first_nodup.
  - intros x I. apply (in_small_first W VB VS HBS Bar) in I. destruct I as (a' & b' & M1 & M2 & _ & ->).
    apply One in M1; auto. subst a'. apply Two in M2; auto; [|lia]. subst b'. reflexivity.
  - apply (in_small_first W VB VS HBS Bar). exists a, b. rewrite One, Two by (auto; lia). repeat split; auto; lia.
  - intros x I. apply (in_big_first W VB VS HBS Bar) in I. destruct I as (a' & b' & M1 & M2 & _ & _ & ->).
    apply One in M1; auto; [|lia]. subst a'. apply Two in M2; auto; [|lia]. subst b'. auto.
  - apply (in_big_first W VB VS HBS Bar). exists a, b. rewrite One, Two by (auto; lia). repeat split; auto; try lia.
Qed.

Lemma one_nodup m d l : valid_die d -> one_checker_moves m p d = Ret l -> NoDup l.
Proof.
  intros V E. unfold one_checker_moves in E. rewrite (index_ret _ 0) in E by (rewrite Hl; unfold X_BAR; lia).
  rewrite bind_ret in E. unfold X_BAR at 1 in E. fold (pt p 25) in E.
  rewrite debug_assert_ret in E by (apply Z.eqb_eq; auto). rewrite bind_ret in E.
  erewrite loop_ret in E; eauto.
  2:{ intros i Hi. rewrite in_range in Hi. pose proof (smallest_pip_pos W V). unfold X_BAR in *. lia. }
  inversion E; subst. apply tp_nodup; auto; [apply nodup_range|].
  intros i Hi. rewrite in_range in Hi. pose proof (smallest_pip_pos W V). unfold X_BAR in *. lia.
Qed.

Lemma bar0_lists m l : moves_with_0_checkers_on_bar m p B S = Ret l ->
  (two_left S p -> exists q, l = [q; q]) /\ (~ two_left S p -> NoDup l).
Proof.
  unfold moves_with_0_checkers_on_bar. rewrite (index_ret _ 0) by (rewrite Hl; unfold X_BAR; lia).
  rewrite bind_ret. unfold X_BAR at 1. fold (pt p 25).
  rewrite debug_assert_ret by (apply Z.eqb_eq; auto). rewrite bind_ret.
  rewrite (two_checker_ret W VB VS HBS Bar), bind_ret. intros E. split.
  - intros T. destruct (bar0_twice T) as (q & Eq). rewrite Eq in E. inversion E. eauto.
  - intros T. pose proof (bar0_nodup T) as Nd. destruct (small_first p B S ++ big_first p B S) as [|x k]; [|inversion E; subst; exact Nd].
    apply bind_inv in E. destruct E as (l1 & E1 & E). pose proof (one_nodup m VB E1) as N1. destruct l1 as [|x k]; [|inversion E; subst; exact N1].
    apply bind_inv in E. destruct E as (l2 & E2 & E). pose proof (one_nodup m VS E2) as N2. destruct l2 as [|x k]; [|inversion E; subst; exact N2].
    inversion E. apply nodup_one.
Qed.
End Bar0.

Section Bar1.
Variables (N : Z) (p : position) (B S : nat).
Hypotheses (W : wf N p) (VB : valid_die B) (VS : valid_die S) (HBS : (S < B)%nat) (Bar : pt p 25 = 1).
Let Hl : length (pips p) = 26%nat := wf_len W.

Lemma bar1_lists m l : moves_with_1_checker_on_bar m p B S = Ret l -> NoDup l.
Proof.
  pose proof VB as (B1 & B2). pose proof VS as (S1 & S2).
  unfold moves_with_1_checker_on_bar. rewrite (index_ret _ 0) by (rewrite Hl; unfold X_BAR; lia).
  rewrite bind_ret. unfold X_BAR. fold (pt p 25).
  rewrite debug_assert_ret by (apply Z.eqb_eq; auto). rewrite bind_ret.
  rewrite !can_enter_ret by (auto; lia). rewrite bind_ret.
  set (eb := -2 <? pt p (25 - B)). set (es := -2 <? pt p (25 - S)).
  assert (Eb : eb = true <-> may_move p B 25)
    by (unfold eb; rewrite Z.ltb_lt, may_enter by (auto; lia); reflexivity).
  assert (Es : es = true <-> may_move p S 25)
    by (unfold es; rewrite Z.ltb_lt, may_enter by (auto; lia); reflexivity).
  set (m1 := if eb then flat_map (tp (mv p B 25) S) (range (S + 1) 25) else []).
  set (m2 := if es then flat_map (tp (mv p S 25) B) (rng1 p B S) else []).
  assert (R1 : (if eb then
        q <- enter_single_checker m p B ;;
        l <- mflat_map (try_push m q S) (range (S + 1) 25) ;;
        Ret (Some q, l)
      else Ret (None, [])) = Ret (if eb then Some (mv p B 25) else None, m1)).
  { unfold m1. destruct eb; auto. assert (M : may_move p B 25) by (apply Eb; auto).
    rewrite (enter_ret m W VB M), bind_ret.
    rewrite (loop_ret m _ (may_wf W VB M) VS); [reflexivity|].
    intros i Hi. apply in_range in Hi. lia. }
  rewrite R1. cbv beta iota. rewrite bind_ret.
  rewrite usub_ret by lia. rewrite bind_ret, (index_ret _ 0) by lia. rewrite bind_ret.
  rewrite usub_ret by lia. rewrite bind_ret, (index_ret _ 0) by lia. rewrite bind_ret.
  fold (pt p (25 - B)) (pt p (25 - S)). rewrite bind_ret.
  assert (R2 : (if es then
        q <- enter_single_checker m p S ;;
        (let rng := if (pt p (25 - B) <? 0) || (pt p (25 - S) <? 0)
                   then range (B + 1) 25 ++ range 1 0
                   else range (B + 1) (25 - S)
                        ++ range (25 - S + 1) 25 in
        l <- mflat_map (try_push m q B) rng ;;
        Ret (Some q, l))
      else Ret (None, [])) = Ret (if es then Some (mv p S 25) else None, m2)).
  { unfold m2. destruct es; auto. assert (M : may_move p S 25) by (apply Es; auto).
    rewrite (enter_ret m W VS M), bind_ret. fold (outcomes1 p B S). fold (rng1 p B S). cbv zeta.
    rewrite (loop_ret m _ (may_wf W VS M) VB); [reflexivity|].
    intros i Hi. apply (in_rng1 W VB VS HBS) in Hi. lia. }
  cbv zeta in R2 |- *. rewrite R2. clear R1 R2. rewrite bind_ret.
  assert (Nd : NoDup (m1 ++ m2)).
  { assert (L1 : forall d, length (pips (mv p d 25)) = 26%nat) by (intros; apply mv_length; auto).
    apply nodup_app.
    - unfold m1. destruct eb; [|constructor]. apply tp_nodup; auto; [apply nodup_range|]. intros i Hi. apply in_range in Hi. lia.
    - unfold m2. destruct es; [|constructor]. apply tp_nodup; auto.
      + unfold rng1. destruct (outcomes1 p B S).
        * replace (range 1 0) with (@nil nat) by reflexivity. rewrite app_nil_r. apply nodup_range.
        * apply nodup_app; try apply nodup_range. intros x I J. apply in_range in I, J. lia.
      + intros i Hi. apply (in_rng1 W VB VS HBS) in Hi. lia.
    - intros x I J. unfold m1 in I. destruct eb eqn:F; [|destruct I]. unfold m2 in J. destruct es eqn:G; [|destruct J].
      assert (M : may_move p B 25) by (apply Eb; auto). assert (M' : may_move p S 25) by (apply Es; auto).
      apply in_tp in I, J. destruct I as (b' & Hb' & C' & ->), J as (b & Hb & C & E).
      apply in_range in Hb'. apply (in_rng1 W VB VS HBS) in Hb. destruct Hb as (Hb & O).
      assert (M2 : may_move (mv p S 25) B b) by (apply (@bar1_second N p B S W HBS Bar S B b VS VB M' ltac:(lia)); split; auto; lia).
      assert (M2' : may_move (mv p B 25) S b') by (apply (@bar1_second N p B S W HBS Bar B S b' VB VS M ltac:(lia)); split; auto; lia).
      symmetry in E. destruct (@cross N p B S W VB VS HBS 25 b b' M' M2 ltac:(lia) M M2' ltac:(lia) E) as [Z|(Z1 & Z2 & Z3 & Z4)]; [lia|].
      destruct O as [O|O].
      + unfold outcomes1 in O. apply orb_true_iff in O. destruct O as [O|O]; apply Z.ltb_lt in O; lia.
      + (* the same checker made both moves *)
        assert (Q : pt (mv (mv p S 25) B b) (25 - S) = pt (mv (mv p B 25) S b') (25 - S)) by congruence.
        rewrite (@pt_mv_other (mv p S 25) B b) in Q by (auto; lia). rewrite (@pt_mv_land p S 25) in Q by (auto; lia).
        rewrite (@pt_mv_other (mv p B 25) S b') in Q by (auto; lia). rewrite (@pt_mv_other p B 25) in Q by (auto; lia).
        destruct (Z.eqb_spec (pt p (25 - S)) (-1)); lia. }
  intros E. destruct (m1 ++ m2) as [|x k]; [|inversion E; subst; exact Nd].
  destruct eb; [inversion E; apply nodup_one|]. destruct es; inversion E; apply nodup_one.
Qed.
End Bar1.

Lemma mixed_lists N m p B S l : wf N p -> valid_dice (Mixed B S) -> all_positions_after_mixed_move m p B S = Ret l ->
  (two_left S p -> exists q, l = [q; q]) /\ (~ two_left S p -> NoDup l).
Proof.
  intros W (VB & VS & HBS) E. unfold all_positions_after_mixed_move in E.
  rewrite debug_assert_ret in E by (apply Nat.ltb_lt; auto). rewrite bind_ret in E.
  rewrite (index_ret _ 0) in E by (rewrite (wf_len W); unfold X_BAR; lia). rewrite bind_ret in E.
  unfold X_BAR in E. fold (pt p 25) in E. pose proof (wf_xbar W).
  destruct (Z.eqb_spec (pt p 25) 0) as [B0|B0]; [exact (@bar0_lists N p B S W VB VS HBS B0 m l E)|].
  assert (T : ~ two_left S p).
  { pose proof VS as (S1 & S2). intros (a & b & L & LS & _ & _ & X). specialize (X 25%nat ltac:(lia) ltac:(lia)). lia. }
  split; [intros X; contradiction|]. intros _.
  destruct (Z.eqb_spec (pt p 25) 1) as [B1|B1]; [exact (@bar1_lists N p B S W VB VS HBS B1 m l E)|].
  unfold moves_with_2_checkers_on_bar in E.
  repeat (apply bind_inv in E; destruct E as (? & _ & E)). inversion E. apply nodup_one.
Qed.

(** Whatever the list, if it is returned: each position once, except in the one case of [two_left]. *)
Lemma movegen_lists N m p d l : wf N p -> valid_dice d -> generate_legal_positions m N p d = Ret l ->
  (repeats d p -> exists q, l = [q; q]) /\
  (~ repeats d p -> NoDup l).
Proof.
  intros W V H. unfold generate_legal_positions in H. apply bind_inv in H. destruct H as ([] & _ & H).
  apply bind_inv in H. destruct H as (l0 & E & H). apply bind_inv in H. destruct H as (l1 & Em & H).
  apply bind_inv in H. destruct H as ([] & _ & H). inversion H; subst l1. clear H.
  assert (H' : forall r, In r l0 -> legal_result d p r).
  { destruct d as [b s|a].
    - destruct (mixed_correct m W V) as (l' & E' & _ & H). rewrite E in E'. inversion E'; subst. intros r. apply H.
    - destruct (double_correct m W V) as (l' & E' & _ & H). rewrite E in E'. inversion E'; subst. intros r. apply H. }
  rewrite (mmap_ret _ flipP) in Em by (intros q Hq; apply H' in Hq; exact (flip_ret m (legal_result_wf W V Hq))).
  inversion Em; subst l. clear Em.
  assert (Nd : NoDup l0 -> NoDup (map flipP l0)).
  { intros X. apply FinFun.Injective_map_NoDup; auto. intros a b Eab. apply flipP_inj, Eab. }
  destruct d as [b s|a].
  - destruct (@mixed_lists N m p b s l0 W V E) as (A1 & A2). split.
    + intros (B & S & Ed & T). inversion Ed; subst. destruct (A1 T) as (q & ->). exists (flipP q). reflexivity.
    + intros T. apply Nd, A2. intros X. apply T. exists b, s. auto.
  - split; [intros (B & S & Ed & _); discriminate|]. intros _. apply Nd. eapply double_nodup; eauto.
Qed.
