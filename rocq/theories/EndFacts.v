(** C88: every game can be finished, unless both sides are closed out. *)
From Verif Require Import LeafFacts SpecFinish FinishFacts PropFinish PropPosition PropMoves PropGame GameFacts VariantFacts PropRace PropDeadlock.
From Coq Require Import Permutation.
Unset Implicit Arguments.
Open Scope Z_scope.

(** ** One move *)
Lemma pt_mv1 p d f i : length (pips p) = 26%nat -> valid_die d -> may_move p d f -> (1 <= i <= 25)%nat ->
  pt (mv p d f) i = if (i =? f)%nat then pt p i - 1
                    else if ((d <? f) && (i =? f - d))%nat then Z.max 1 (pt p i + 1) else pt p i.
Proof.
  intros L V M I. pose proof (may_move_range M) as R. unfold valid_die in V. rewrite pt_mv by (auto; lia).
  destruct (Nat.eqb_spec i f) as [->|]; [reflexivity|].
  destruct (Nat.ltb_spec d f) as [H|H]; cbn [andb]; [|reflexivity].
  destruct (Nat.eqb_spec i (f - d)) as [->|].
  - destruct M as (_ & _ & _ & O & _). specialize (O H). destruct (Z.eqb_spec (pt p (f - d)) (-1)); lia.
  - destruct (Nat.eqb_spec i 0); [lia|]. reflexivity.
Qed.
Lemma pt_mv0 p d f : length (pips p) = 26%nat -> valid_die d -> may_move p d f ->
  pt (mv p d f) 0 = pt p 0 - (if ((d <? f)%nat && (pt p (f - d) =? -1)) then 1 else 0).
Proof.
  intros L V M. pose proof (may_move_range M) as R. unfold valid_die in V. rewrite pt_mv by (auto; lia).
  destruct (Nat.eqb_spec 0 f); [lia|]. destruct (Nat.ltb_spec d f) as [H|H]; cbn [andb]; [|lia].
  destruct (Nat.eqb_spec 0 (f - d)); [lia|]. rewrite Nat.eqb_refl. cbn [andb]. destruct (pt p (f - d) =? -1); lia.
Qed.
Ltac mvc := rewrite pt_mv1 by (auto; lia); repeat (match goal with |- context [Nat.eqb ?a ?b] => destruct (Nat.eqb_spec a b)
                                       | |- context [Nat.ltb ?a ?b] => destruct (Nat.ltb_spec a b) end; cbn [andb]); subst; try lia.
(** Points held by o stay held, and no others become held. *)
Lemma held_mv p d f i : length (pips p) = 26%nat -> valid_die d -> may_move p d f -> (1 <= i <= 25)%nat ->
  (pt (mv p d f) i <= -2 <-> pt p i <= -2).
Proof.
  intros L V M I. pose proof M as (_ & Mp & _ & Mo & _). mvc; split; intros; try lia; specialize (Mo ltac:(lia)); lia.
Qed.

(** ** Turns *)
Section Turns.
Variable k : variant.
Notation N := (checkers k).
Definition fin (p : position) : Prop := can_be_finished (tag k p).
Lemma fin_over p : ~ ongoing N p -> fin p.
Proof. intros H. exists 0%nat, (tag k p). split; [constructor|]. rewrite vongoing_tag. exact H. Qed.
Lemma fin_step p d ds r : wf N p -> valid_dice d -> legal_play d p ds r -> fin (flipP r) -> fin p.
Proof.
  intros W V L (n & w & P & O). destruct (over_dec' k p) as [Op|Op].
  - destruct (legal_v k p d ds r W V L) as (_ & Lv). exists (S n), w. split; auto. eapply played_S; eauto.
  - exists 0%nat, (tag k p). split; [constructor|auto].
Qed.
Lemma no_plays p h : wf N p -> valid_die h -> (forall f, ~ may_move p h f) -> legal_play (Double h) p [] p.
Proof.
  intros W V H. split; [exists (pool (Double h)); apply Permutation_refl|]. split; [constructor|]. split; [|discriminate].
  intros ds' r' U P. pose proof (FinishFacts.uses_double _ _ U) as E. destruct (length ds') as [|n]; [lia|].
  rewrite E in P. cbn in P. inversion P; subst. exfalso. eapply H; eauto.
Qed.
Lemma fin_pass p h : wf N p -> valid_die h -> (forall f, ~ may_move p h f) -> fin (flipP p) -> fin p.
Proof. intros W V H. apply (fin_step p (Double h) [] p); auto. apply no_plays; auto. Qed.
Lemma legal_wf p d ds r : wf N p -> valid_dice d -> legal_play d p ds r -> wf N r.
Proof. intros W V L. apply (legal_v k p d ds r W V L). Qed.
(** x plays and o passes. *)
Lemma fin_solo p d ds r h : wf N p -> valid_dice d -> legal_play d p ds r -> valid_die h ->
  (forall f, ~ may_move (flipP r) h f) -> fin r -> fin p.
Proof.
  intros W V L Vh H F. apply (fin_step p d ds r W V L). pose proof (legal_wf p d ds r W V L) as Wr.
  apply (fin_pass (flipP r) h); auto; [apply flipP_wf; auto|]. rewrite flipP_involutive. exact F.
Qed.
Lemma frozen_bar r h : length (pips r) = 26%nat -> valid_die h -> pt r 0 < 0 -> 2 <= pt r h -> forall f, ~ may_move (flipP r) h f.
Proof.
  intros L V B H f M. assert (E : pt (flipP r) 25 = - pt r 0) by (rewrite pt_flipP by (auto; lia); reflexivity).
  assert (f = 25%nat) by (apply (may_bar (p := flipP r) (die := h)); [lia|auto]). subst f.
  destruct M as (_ & _ & _ & O & _). unfold valid_die in V. specialize (O ltac:(lia)). rewrite pt_flipP in O by (auto; lia).
  replace (25 - (25 - h))%nat with h in O by lia. lia.
Qed.

(** ** Even doubles *)
Definition wx (i : nat) : Z := Z.of_nat i * (if Nat.even i then 101 else 1).
Definition wo (i : nat) : Z := (25 - Z.of_nat i) * (if Nat.even i then 1 else 101).
Definition term (p : position) (i : nat) : Z := wx i * Z.max 0 (pt p i) + wo i * Z.max 0 (- pt p i).
Definition phi (p : position) : Z := sumZ (map (term p) (seq 0 26)).
Lemma term_nonneg p i : (i <= 25)%nat -> 0 <= term p i.
Proof. intros. unfold term, wx, wo. destruct (Nat.even i); nia. Qed.
Lemma phi_nonneg p : 0 <= phi p.
Proof.
  unfold phi. assert (H : forall l, (forall i, In i l -> (i <= 25)%nat) -> 0 <= sumZ (map (term p) l)).
  { induction l as [|a l IH]; intros I; cbn; [lia|]. pose proof (term_nonneg p a (I a (or_introl eq_refl))).
    specialize (IH (fun i J => I i (or_intror J))). unfold sumZ in IH. lia. }
  apply H. intros i I. apply in_seq in I. lia.
Qed.
Lemma phi_flip p : length (pips p) = 26%nat -> phi (flipP p) = phi p.
Proof.
  intros L. unfold phi. rewrite <- (sumZ_seq_rev (term p) 25). f_equal. apply map_ext_in. intros i Hi. apply in_seq in Hi.
  unfold term. rewrite pt_flipP by (auto; lia). rewrite Z.opp_involutive, Z.add_comm.
  assert (E : Nat.even (25 - i) = negb (Nat.even i)).
  { rewrite Nat.even_sub by lia. cbn. destruct (Nat.even i); reflexivity. }
  unfold wx, wo. rewrite E. destruct (Nat.even i); cbn [negb]; replace (Z.of_nat (25 - i)) with (25 - Z.of_nat i) by lia; lia.
Qed.
Lemma sum_ind f a : (f <= 25)%nat -> sumZ (map (fun i => if (i =? f)%nat then a else 0) (seq 0 26)) = a.
Proof. intros H. do 26 (destruct f as [|f]; [unfold sumZ; simpl; lia|]). lia. Qed.
Lemma phi_mv N' p d f : wf N' p -> (d = 2 \/ d = 4 \/ d = 6)%nat -> may_move p d f -> phi (mv p d f) < phi p.
Proof.
  intros W D M. assert (V : valid_die d) by (unfold valid_die; lia). pose proof (wf_len W) as L. pose proof (may_move_range M) as R.
  set (t := (f - d)%nat). assert (Ht : t = (f - d)%nat) by reflexivity. pose proof M as (_ & Mp & Mb & Mo & _).
  assert (T : forall i, In i (seq 0 26) -> term (mv p d f) i = term p i + ((if (i =? f)%nat then - wx f else 0) +
      ((if (i =? t)%nat then (if (d <? f)%nat then wx t - (if pt p t =? -1 then wo t else 0) else 0) else 0) +
       (if (i =? 0)%nat then (if (d <? f)%nat && (pt p t =? -1) then wo 0 else 0) else 0)))).
  { intros i Hi. apply in_seq in Hi. destruct (Nat.eqb_spec i 0) as [->|I0].
    - destruct (Nat.eqb_spec 0 f); [lia|]. unfold term. rewrite pt_mv0 by auto. fold t. pose proof (wf_obar W) as B0.
      destruct (Nat.ltb_spec d f); cbn [andb]; [|destruct (0 =? t)%nat; change (wx 0) with 0; lia].
      destruct (Nat.eqb_spec 0 t); [lia|]. change (wx 0) with 0. change (wo 0) with 25. destruct (pt p t =? -1); lia.
    - unfold term. rewrite pt_mv1 by (auto; lia). fold t.
      destruct (Nat.eqb_spec i f) as [->|If].
      + destruct (Nat.eqb_spec f t); [lia|].
        replace (Z.max 0 (pt p f - 1)) with (pt p f - 1) by lia. replace (Z.max 0 (- (pt p f - 1))) with 0 by lia.
        replace (Z.max 0 (pt p f)) with (pt p f) by lia. replace (Z.max 0 (- pt p f)) with 0 by lia. ring.
      + destruct (Nat.ltb_spec d f); cbn [andb]; [|destruct (i =? t)%nat; lia].
        destruct (Nat.eqb_spec i t) as [->|]; [|lia]. specialize (Mo H). fold t in Mo.
        destruct (Z.eqb_spec (pt p t) (-1)) as [->|]; [cbn; lia|].
        replace (Z.max 1 (pt p t + 1)) with (pt p t + 1) by lia.
        replace (Z.max 0 (pt p t + 1)) with (pt p t + 1) by lia. replace (Z.max 0 (- (pt p t + 1))) with 0 by lia.
        replace (Z.max 0 (pt p t)) with (pt p t) by lia. replace (Z.max 0 (- pt p t)) with 0 by lia. ring. }
  unfold phi. rewrite (map_ext_in _ _ _ T). rewrite !sumZ_add, !sum_ind by (unfold t; lia).
  destruct (Nat.ltb_spec d f) as [H|H]; cbn [andb].
  - assert (Ev : Nat.even t = Nat.even f).
    { unfold t. rewrite Nat.even_sub by lia. destruct D as [->|[->| ->]]; cbn; destruct (Nat.even f); reflexivity. }
    assert (T1 : (1 <= t <= 23)%nat) by (unfold t; lia). assert (Zt : Z.of_nat t = Z.of_nat f - Z.of_nat d) by (unfold t; lia).
    unfold wx, wo. rewrite Ev. cbn [Nat.even]. destruct (Nat.even f); destruct (pt p t =? -1); lia.
  - unfold wx. destruct (Nat.even f); lia.
Qed.
Lemma phi_plays d : (d = 2 \/ d = 4 \/ d = 6)%nat -> forall n p r, wf N p -> plays (repeat d n) p r -> phi r <= phi p /\ (n <> 0%nat -> phi r < phi p).
Proof.
  intros D. assert (V : valid_die d) by (unfold valid_die; lia).
  induction n as [|n IH]; intros p r W P; cbn in P.
  - inversion P; subst. lia.
  - apply (plays_cons_iff (repeat d n) r W V) in P. destruct P as (a & M & P).
    pose proof (phi_mv N p d a W D M). destruct (IH _ _ (may_wf W V M) P). lia.
Qed.
(** Some even double can be moved. *)
Lemma even_dec p : wf N p -> (exists d f, (d = 2 \/ d = 4 \/ d = 6)%nat /\ may_move p d f) \/
  (forall d f, (d = 2 \/ d = 4 \/ d = 6)%nat -> ~ may_move p d f).
Proof.
  intros W.
  assert (A : forall d, (d = 2 \/ d = 4 \/ d = 6)%nat -> (exists f, may_move p d f) \/ forall f, ~ may_move p d f).
  { intros d D. assert (V : valid_die d) by (unfold valid_die; lia). destruct (anyb p d) eqn:E.
    - left. apply (anyb_true W V); auto.
    - right. apply (anyb_false W V); auto. }
  destruct (A 2%nat) as [(f & M)|A2]; [auto|left; exists 2%nat, f; auto|].
  destruct (A 4%nat) as [(f & M)|A4]; [auto|left; exists 4%nat, f; auto|].
  destruct (A 6%nat) as [(f & M)|A6]; [auto|left; exists 6%nat, f; auto|].
  right. intros d f [->|[->| ->]]; auto.
Qed.
(** Both players stuck for even doubles. *)
Definition both_barred (p : position) : Prop :=
  0 < pt p 25 /\ pt p 0 < 0 /\ (forall i, In i [19; 21; 23]%nat -> pt p i <= -2) /\ (forall i, In i [2; 4; 6]%nat -> 2 <= pt p i).
Definition no_even (p : position) : Prop := forall d f, (d = 2 \/ d = 4 \/ d = 6)%nat -> ~ may_move p d f.
Lemma no_even_bar p : wf N p -> no_even p -> 0 < pt p 25 -> forall i, In i [19; 21; 23]%nat -> pt p i <= -2.
Proof.
  intros W S B i I. destruct (Z_le_gt_dec (pt p i) (-2)) as [|G]; auto. exfalso.
  assert (H : exists d, (d = 2 \/ d = 4 \/ d = 6)%nat /\ i = (25 - d)%nat).
  { cbn in I. destruct I as [<-|[<-|[<-|[]]]]; [exists 6%nat|exists 4%nat|exists 2%nat]; lia. }
  destruct H as (d & D & ->). apply (S d 25%nat D). split; [lia|]. split; [lia|]. split; [congruence|]. split; [intros; lia|lia].
Qed.
Lemma no_even_nobar p : wf N p -> ongoing N p -> no_even p -> pt p 25 <= 0 ->
  exists j, (1 <= j <= 20)%nat /\ pt p j <= -2 /\ pt p (j + 2) <= -2.
Proof.
  intros W (O & _) S B. destruct (rearmost N p W O) as (f & Rf & Pf & Fb).
  assert (f <> 25%nat) by (intros ->; lia).
  assert (f <> 0%nat) by (intros ->; pose proof (wf_obar W); lia).
  destruct (le_lt_dec f 6) as [H6|H6].
  - exfalso. apply (S 6%nat f ltac:(auto)). split; [lia|]. split; [auto|]. split; [auto|]. split; [lia|]. intros _. split; [|intros _; apply Fb].
    intros i Hi. apply Fb. lia.
  - assert (X : forall d, (d = 2 \/ d = 4 \/ d = 6)%nat -> pt p (f - d) <= -2).
    { intros d D. destruct (Z_le_gt_dec (pt p (f - d)) (-2)) as [|G]; auto. exfalso. apply (S d f D).
      split; [lia|]. split; [auto|]. split; [auto|]. split; [intros; lia|lia]. }
    exists (f - 4)%nat. split; [lia|]. split; [apply X; auto|]. replace (f - 4 + 2)%nat with (f - 2)%nat by lia. apply X; auto.
Qed.
Lemma no_even_both p : wf N p -> ongoing N p -> no_even p -> no_even (flipP p) -> both_barred p.
Proof.
  intros W O S S'. pose proof (wf_len W) as L. pose proof (flipP_wf W) as W'.
  assert (O' : ongoing N (flipP p)) by (destruct O; split; auto).
  assert (F : forall i, (i <= 25)%nat -> pt (flipP p) i = - pt p (25 - i)) by (intros; apply pt_flipP; auto).
  (* a player not on the bar with two points two apart can move a 2 *)
  assert (K : forall q j, wf N q -> no_even q -> pt q 25 <= 0 -> (1 <= j <= 22)%nat -> 0 < pt q (j + 2) -> 0 < pt q j -> False).
  { intros q j Wq Sq B J P1 P2. apply (Sq 2%nat (j + 2)%nat ltac:(auto)). split; [lia|]. split; [auto|]. split; [auto|].
    split; [|lia]. intros _. replace (j + 2 - 2)%nat with j by lia. lia. }
  destruct (Z_lt_le_dec 0 (pt p 25)) as [B|B]; destruct (Z_lt_le_dec (pt p 0) 0) as [B'|B'].
  - split; auto. split; auto. split; [apply no_even_bar; auto|]. intros i I.
    assert (Ri : (2 <= i <= 6)%nat) by (cbn in I; destruct I as [<-|[<-|[<-|[]]]]; lia).
    assert (X : pt (flipP p) (25 - i) <= -2).
    { apply no_even_bar; auto; [rewrite F by lia; change (25 - 25)%nat with 0%nat; lia|]. cbn in *. destruct I as [<-|[<-|[<-|[]]]]; cbn; auto. }
    rewrite F in X by lia. replace (25 - (25 - i))%nat with i in X by lia. lia.
  - exfalso. pose proof (no_even_bar p W S B) as H. apply (K (flipP p) 4%nat W' S'); [rewrite F by lia; change (25 - 25)%nat with 0%nat; lia|lia| |].
    + rewrite F by lia. change (25 - (4 + 2))%nat with 19%nat. specialize (H 19%nat ltac:(cbn; auto)). lia.
    + rewrite F by lia. change (25 - 4)%nat with 21%nat. specialize (H 21%nat ltac:(cbn; auto)). lia.
  - exfalso. assert (B2 : 0 < pt (flipP p) 25) by (rewrite F by lia; change (25 - 25)%nat with 0%nat; lia).
    pose proof (no_even_bar (flipP p) W' S' B2) as H. apply (K p 4%nat W S B); [lia| |].
    + specialize (H 19%nat ltac:(cbn; auto)). rewrite F in H by lia. change (25 - 19)%nat with 6%nat in H. change (4 + 2)%nat with 6%nat. lia.
    + specialize (H 21%nat ltac:(cbn; auto)). rewrite F in H by lia. change (25 - 21)%nat with 4%nat in H. lia.
  - exfalso. destruct (no_even_nobar p W O S B) as (j & J & P1 & P2).
    apply (K (flipP p) (23 - j)%nat W' S'); [rewrite F by lia; change (25 - 25)%nat with 0%nat; lia|lia| |].
    + rewrite F by lia. replace (25 - (23 - j + 2))%nat with j by lia. lia.
    + rewrite F by lia. replace (25 - (23 - j))%nat with (j + 2)%nat by lia. lia.
Qed.

(** A mutual close-out is not reached from other positions. *)
Lemma not_closed_step : forall p d ds r, wf N p -> valid_dice d -> legal_play d p ds r -> ~ SpecDeadlock.both_closed_out p ->
    ~ SpecDeadlock.both_closed_out (flipP r).
Proof.
  intros p d ds r W V L ND C. pose proof (legal_wf p d ds r W V L) as Wr. apply ND. clear ND.
    apply closed_flip in C; [|rewrite flipP_length; apply Wr]. rewrite flipP_involutive in C.
    destruct L as (U & P & _). pose proof (uses_valid V U) as Vd. clear - W P C Vd. revert p W P.
    induction ds as [|a ds IH]; intros p W P; [inversion P; subst; auto|].
    inversion_clear Vd as [|? ? Va Vd'].
    apply (plays_cons_iff ds r W Va) in P. destruct P as (f & M & P).
    pose proof (IH Vd' _ (may_wf W Va M) P) as (C1 & C2 & _). pose proof (may_move_range M) as R. exfalso.
    destruct (Nat.eq_dec f 25) as [->|F].
    - specialize (C2 (25 - a)%nat). unfold valid_die in Va. rewrite pt_mv1 in C2 by (auto; try apply W; lia).
      destruct (Nat.eqb_spec (25 - a) 25); [lia|]. destruct (Nat.ltb_spec a 25); [|lia]. rewrite Nat.eqb_refl in C2. cbn [andb] in C2. lia.
    - rewrite pt_mv1 in C1 by (auto; try apply W; lia). destruct (Nat.eqb_spec 25 f); [lia|].
      destruct M as (_ & _ & Mb & _). specialize (Mb F). unfold valid_die in Va.
      destruct (Nat.eqb_spec 25 (f - a)); [lia|]. rewrite andb_false_r in C1. lia.
Qed.
(** Playing even doubles leads to such a position or to the end. *)
Lemma even_phase (G : forall p, wf N p -> ongoing N p -> both_barred p -> ~ SpecDeadlock.both_closed_out p -> fin p) :
  forall n p, wf N p -> phi p <= Z.of_nat n -> ~ SpecDeadlock.both_closed_out p -> fin p.
Proof.
  assert (E : forall p, wf N p -> (exists d f, (d = 2 \/ d = 4 \/ d = 6)%nat /\ may_move p d f) ->
    exists d ds r, valid_dice d /\ legal_play d p ds r /\ wf N r /\ phi (flipP r) < phi p).
  { intros p W (d & f & D & M). assert (V : valid_die d) by (unfold valid_die; lia).
    destruct (some_legal N p (Double d) W V) as (ds & r & L). pose proof (legal_wf p (Double d) ds r W V L) as Wr.
    exists (Double d), ds, r. split; auto. split; auto. split; auto. rewrite phi_flip by apply Wr.
    destruct L as (U & P & Mx & _). pose proof (FinishFacts.uses_double _ _ U) as Ed. rewrite Ed in P.
    apply (phi_plays d D _ p r W P). intros Z.
    assert (X : (1 <= length ds)%nat); [|lia]. apply (Mx [d] (mv p d f)).
    - exists [d; d; d]. apply Permutation_refl.
    - apply (plays_one (mv p d f) W V). eauto. }
  pose proof not_closed_step as D.
  induction n as [|n IH]; intros p W Ph ND.
  - destruct (even_dec p W) as [Ev|S].
    + destruct (E p W Ev) as (d & ds & r & V & L & Wr & X). pose proof (phi_nonneg (flipP r)). lia.
    + destruct (over_dec' k p) as [O|O]; [apply vongoing_tag in O|exists 0%nat, (tag k p); split; [constructor|auto]].
      destruct (even_dec (flipP p) (flipP_wf W)) as [Ev|S'].
      * destruct (E (flipP p) (flipP_wf W) Ev) as (d & ds & r & V & L & Wr & X). pose proof (phi_nonneg (flipP r)).
        rewrite (phi_flip p) in X by apply W. lia.
      * apply G; auto. apply no_even_both; auto.
  - destruct (over_dec' k p) as [O|O]; [apply vongoing_tag in O|exists 0%nat, (tag k p); split; [constructor|auto]].
    destruct (even_dec p W) as [Ev|S].
    + destruct (E p W Ev) as (d & ds & r & V & L & Wr & X). apply (fin_step p d ds r W V L). apply IH; [apply flipP_wf; auto|lia|].
      apply (D p d ds r); auto.
    + destruct (even_dec (flipP p) (flipP_wf W)) as [Ev|S'].
      * destruct (E (flipP p) (flipP_wf W) Ev) as (d & ds & r & V & L & Wr & X). rewrite (phi_flip p) in X by apply W.
        assert (ND' : ~ SpecDeadlock.both_closed_out (flipP p)).
        { intros C. apply ND. apply closed_flip in C; [|rewrite flipP_length; apply W]. rewrite flipP_involutive in C. exact C. }
        apply (fin_pass p 2%nat W); [cbv; lia|intros f; apply S; auto|].
        apply (fin_step (flipP p) d ds r (flipP_wf W) V L). apply IH; [apply flipP_wf; auto|lia|].
        apply (D (flipP p) d ds r); auto. apply flipP_wf; auto.
      * apply G; auto. apply no_even_both; auto.
Qed.

(** ** All checkers home and an opponent on the bar *)
Definition all_home (p : position) : Prop := forall i, (6 < i <= 25)%nat -> pt p i <= 0.
Lemma all_home_dec p : all_home p \/ exists i, (6 < i <= 25)%nat /\ 0 < pt p i.
Proof.
  destruct (existsb (fun i => 0 <? pt p i) (seq 7 19)) eqn:E.
  - right. apply existsb_exists in E. destruct E as (i & I & H). apply in_seq in I. apply Z.ltb_lt in H. exists i. lia.
  - left. intros i I. destruct (Z_le_gt_dec (pt p i) 0); auto. exfalso.
    assert (existsb (fun i => 0 <? pt p i) (seq 7 19) = true); [|congruence].
    apply existsb_exists. exists i. split; [apply in_seq; lia|apply Z.ltb_lt; lia].
Qed.
Lemma home_mv p d f : length (pips p) = 26%nat -> valid_die d -> all_home p -> may_move p d f -> all_home (mv p d f) /\ (f <= 6)%nat.
Proof.
  intros L V H M. pose proof M as (R & P & _). assert (F : (f <= 6)%nat).
  { destruct (le_lt_dec f 6); auto. specialize (H f). lia. }
  split; auto. intros i I. specialize (H i I). unfold valid_die in V. mvc.
Qed.
Lemma bar_mv0 p d f : length (pips p) = 26%nat -> valid_die d -> may_move p d f -> pt (mv p d f) 0 <= pt p 0.
Proof. intros L V M. rewrite pt_mv0 by auto. destruct (_ && _); lia. Qed.
Lemma home_plays ds : forall p r, wf N p -> Forall valid_die ds -> all_home p -> plays ds p r ->
  all_home r /\ pt r 0 <= pt p 0 /\ x_off r <= x_off p + Z.of_nat (length ds).
Proof.
  induction ds as [|d ds IH]; intros p r W V H P.
  - inversion P; subst. cbn. split; auto. lia.
  - inversion_clear V as [|? ? Vd Vds]. apply (plays_cons_iff ds r W Vd) in P. destruct P as (f & M & P).
    destruct (home_mv p d f (wf_len W) Vd H M) as (H1 & F).
    destruct (IH _ _ (may_wf W Vd M) Vds H1 P) as (A & B & C). pose proof (bar_mv0 p d f (wf_len W) Vd M).
    split; auto. split; [lia|]. rewrite mv_xoff in C. cbn [length]. destruct (f <=? d)%nat; lia.
Qed.
Lemma six_home p : wf N p -> x_off p < N -> all_home p -> exists f, may_move p 6 f.
Proof.
  intros W O H. destruct (rearmost N p W O) as (f & Rf & Pf & Fb).
  assert (f <> 0%nat) by (intros ->; pose proof (wf_obar W); lia).
  assert (F : (f <= 6)%nat). { destruct (le_lt_dec f 6); auto. specialize (H f). lia. }
  exists f. split; [lia|]. split; auto. split; [intros _; apply H; lia|]. split; [lia|]. intros _. split; auto.
Qed.
Lemma sixes_home n : forall p, wf N p -> all_home p -> Z.of_nat n <= N - x_off p ->
  exists r, plays (repeat 6%nat n) p r /\ x_off r = x_off p + Z.of_nat n.
Proof.
  assert (V : valid_die 6) by (cbv; lia).
  induction n as [|n IH]; intros p W H C.
  - exists p. split; [constructor|lia].
  - destruct (six_home p W ltac:(lia) H) as (f & M). destruct (home_mv p 6 f (wf_len W) V H M) as (H1 & F).
    assert (X : x_off (mv p 6 f) = x_off p + 1) by (rewrite mv_xoff; destruct (Nat.leb_spec f 6); lia).
    destruct (IH (mv p 6 f) (may_wf W V M) H1 ltac:(lia)) as (r & P & E). exists r. split; [|lia].
    cbn [repeat]. apply (plays_cons_iff (repeat 6%nat n) r W V). eauto.
Qed.
Lemma x_total p : wf N p -> sumZ (map (fun i => Z.max 0 (pt p i)) (seq 0 26)) = N - x_off p.
Proof.
  intros W. pose proof (wf_x W) as O. pose proof (wf_len W) as L. unfold x_checkers in O.
  assert (E : map (fun i => Z.max 0 (pt p i)) (seq 0 26) = map (fun v => Z.max 0 v) (pips p)).
  { unfold pt. clear - L. destruct p as [t ps a b]. cbn in *. do 26 (destruct ps as [|? ps]; [discriminate|]). destruct ps; [reflexivity|discriminate]. }
  rewrite E. lia.
Qed.
Lemma pigeon p : wf N p -> all_home p -> 7 <= N - x_off p -> exists h, valid_die h /\ 2 <= pt p h.
Proof.
  intros W H C. rewrite <- (x_total p W) in C.
  destruct (existsb (fun h => 2 <=? pt p h) (seq 1 6)) eqn:E.
  - apply existsb_exists in E. destruct E as (h & I & X). apply in_seq in I. apply Z.leb_le in X. exists h. unfold valid_die. lia.
  - exfalso. assert (A : forall h, (1 <= h <= 6)%nat -> pt p h <= 1).
    { intros h I. destruct (Z_le_gt_dec (pt p h) 1); auto. exfalso.
      assert (existsb (fun h => 2 <=? pt p h) (seq 1 6) = true); [|congruence].
      apply existsb_exists. exists h. split; [apply in_seq; lia|apply Z.leb_le; lia]. }
    assert (B : forall i, In i (seq 0 26) -> Z.max 0 (pt p i) <= if ((1 <=? i) && (i <=? 6))%nat then 1 else 0).
    { intros i I. apply in_seq in I. destruct (Nat.eq_dec i 0) as [->|]; [pose proof (wf_obar W); change (1 <=? 0)%nat with false; cbn [andb]; lia|].
      destruct (Nat.leb_spec 1 i); [|lia]. destruct (Nat.leb_spec i 6); cbn [andb]; [specialize (A i ltac:(lia)); lia|specialize (H i ltac:(lia)); lia]. }
    assert (S : forall (f g : nat -> Z) l, (forall i, In i l -> f i <= g i) -> sumZ (map f l) <= sumZ (map g l)).
    { induction l as [|a l IH]; intros X; cbn; [lia|]. pose proof (X a (or_introl eq_refl)).
      specialize (IH (fun i J => X i (or_intror J))). unfold sumZ in IH. lia. }
    specialize (S _ _ _ B). cbv beta in S.
    assert (R : sumZ (map (fun i => if ((1 <=? i) && (i <=? 6))%nat then 1 else 0) (seq 0 26)) = 6) by (vm_compute; reflexivity).
    rewrite R in S. lia.
Qed.
Lemma home_bar n : forall p, wf N p -> x_pips p <= Z.of_nat n -> all_home p -> pt p 0 < 0 -> fin p.
Proof.
  assert (V6 : valid_die 6) by (cbv; lia).
  induction n as [n IH] using lt_wf_ind. intros p W Xp H B.
  destruct (over_dec' k p) as [O|O]; [apply vongoing_tag in O|exists 0%nat, (tag k p); split; [constructor|auto]].
  destruct O as (O1 & O2). destruct (Z_le_gt_dec (N - x_off p) 8) as [S|S].
  - (* at most eight: 6-6 leaves at most four *)
    destruct (Z_le_gt_dec (N - x_off p) 4) as [F|F].
    + apply (few_checkers k (tag k p)); [exists p; auto|apply vongoing_tag; split; auto|]. left. unfold x_left. rewrite board_of_tag. lia.
    + destruct (sixes_home 4 p W H ltac:(lia)) as (r & P & E).
      assert (L : legal_play (Double 6) p [6; 6; 6; 6]%nat r) by (apply full_legal; [apply Permutation_refl|exact P]).
      apply (fin_step p (Double 6) _ r W V6 L). pose proof (legal_wf p (Double 6) _ r W V6 L) as Wr.
      destruct (over_dec' k (flipP r)) as [Or|Or]; [|exists 0%nat, (tag k (flipP r)); split; [constructor|auto]].
      apply (few_checkers k (tag k (flipP r))); [exists (flipP r); split; auto; apply flipP_wf; auto|exact Or|]. right.
      unfold o_left. rewrite board_of_tag. change (o_off (flipP r)) with (x_off r). lia.
  - assert (V : valid_dice (Mixed 6 5)) by (cbv; lia).
    destruct (some_legal N p (Mixed 6 5) W V) as (ds & r & L). pose proof (legal_wf p _ ds r W V L) as Wr.
    pose proof L as (U & P & Mx & _). pose proof (uses_valid V U) as Vd. pose proof (uses_len _ _ U) as Ln. cbn in Ln.
    destruct (home_plays ds p r W Vd H P) as (Hr & Br & Xr).
    destruct (pigeon r Wr Hr ltac:(lia)) as (h & Vh & Ph).
    apply (fin_solo p (Mixed 6 5) ds r h W V L Vh).
    + apply frozen_bar; auto; [apply Wr|lia].
    + assert (X : (1 <= length ds)%nat).
      { destruct (six_home p W ltac:(lia) H) as (f & M). apply (Mx [6%nat] (mv p 6 f)).
        - exists [5%nat]. apply Permutation_refl.
        - apply (plays_one (mv p 6 f) W V6). eauto. }
      pose proof (plays_less _ ds p r W Vd P). pose proof (x_pips_nonneg r).
      apply (IH (Z.to_nat (x_pips r))); auto; lia.
Qed.

(** ** Moves that do not hit *)
Definition neg_same (p q : position) : Prop := forall i, (i <= 25)%nat -> Z.min 0 (pt q i) = Z.min 0 (pt p i).
Lemma neg_trans p q r : neg_same p q -> neg_same q r -> neg_same p r.
Proof. intros A B i I. rewrite (B i I). auto. Qed.
Lemma neg_pips p q : neg_same p q -> o_pips q = o_pips p.
Proof.
  intros H. unfold o_pips. f_equal. apply map_ext_in. intros i I. apply in_seq in I. specialize (H i ltac:(lia)).
  replace (Z.max 0 (- pt q i)) with (Z.max 0 (- pt p i)) by lia. reflexivity.
Qed.
Lemma q1 p d f : wf N p -> valid_die d -> (d < f <= 25)%nat -> 0 < pt p f -> (f <> 25%nat -> pt p 25 <= 0) -> 0 <= pt p (f - d) ->
  may_move p d f /\ wf N (mv p d f) /\ neg_same p (mv p d f) /\ pt (mv p d f) 0 = pt p 0 /\
  forall i, (1 <= i <= 25)%nat -> pt (mv p d f) i = pt p i - (if (i =? f)%nat then 1 else 0) + (if (i =? f - d)%nat then 1 else 0).
Proof.
  intros W V R P B Q. destruct (quiet_step N p d f W V R P B Q) as (M & _ & Wq & _). pose proof (wf_len W) as L. unfold valid_die in *.
  assert (E0 : pt (mv p d f) 0 = pt p 0).
  { rewrite pt_mv0 by (auto; lia). destruct (Z.eqb_spec (pt p (f - d)) (-1)); [lia|]. rewrite andb_false_r. lia. }
  assert (E : forall i, (1 <= i <= 25)%nat -> pt (mv p d f) i = pt p i - (if (i =? f)%nat then 1 else 0) + (if (i =? f - d)%nat then 1 else 0)).
  { intros i I. rewrite pt_mv1 by (auto; lia). destruct (Nat.eqb_spec i f) as [->|].
    - destruct (Nat.eqb_spec f (f - d)); lia.
    - destruct (Nat.ltb_spec d f); [|lia]. cbn [andb]. destruct (Nat.eqb_spec i (f - d)) as [->|]; lia. }
  split; auto. split; auto. split; auto. intros i I. destruct (Nat.eq_dec i 0) as [->|]; [rewrite E0; reflexivity|].
  rewrite E by lia. destruct (Nat.eqb_spec i f) as [Ef|]; destruct (Nat.eqb_spec i (f - d)) as [Et|]; try lia.
  - rewrite Ef. lia.
  - rewrite Et. lia.
Qed.
Ltac eqs := repeat match goal with |- context [Nat.eqb ?a ?b] => destruct (Nat.eqb_spec a b); try lia
                                 | H : context [Nat.eqb ?a ?b] |- _ => destruct (Nat.eqb_spec a b); try lia end.

(** ** The last phase: x is nearly home, o moves sixes *)
Definition six_points (s i : nat) : Prop := i = s \/ i = (s + 6)%nat \/ i = (s + 12)%nat \/ i = (s + 18)%nat \/ (20 <= i <= 24)%nat.
Definition last_phase (s : nat) (p : position) : Prop :=
  (s = 1 \/ s = 3)%nat /\ (forall i, (s + 5 < i <= 25)%nat -> pt p i <= 0) /\
  (forall i, (1 <= i <= 24)%nat -> pt p i < 0 -> six_points s i) /\ pt p 0 = 0.
(** The same from the other side. *)
Definition last_mirror (s : nat) (q : position) : Prop :=
  (s = 1 \/ s = 3)%nat /\ (forall i, (i < 20 - s)%nat -> 0 <= pt q i) /\
  (forall i, (1 <= i <= 24)%nat -> 0 < pt q i -> six_points s (25 - i)) /\ pt q 25 = 0.
Lemma last_flip s p : length (pips p) = 26%nat -> last_phase s p -> last_mirror s (flipP p).
Proof.
  intros L (S & X & O & B). split; auto. split; [|split].
  - intros i I. rewrite pt_flipP by (auto; lia). specialize (X (25 - i)%nat ltac:(lia)). lia.
  - intros i I P. rewrite pt_flipP in P by (auto; lia). apply O; lia.
  - rewrite pt_flipP by (auto; lia). change (25 - 25)%nat with 0%nat. lia.
Qed.
Lemma last_unflip s q : length (pips q) = 26%nat -> last_mirror s q -> last_phase s (flipP q).
Proof.
  intros L (S & X & O & B). split; auto. split; [|split].
  - intros i I. rewrite pt_flipP by (auto; lia). specialize (X (25 - i)%nat ltac:(lia)). lia.
  - intros i I P. rewrite pt_flipP in P by (auto; lia). specialize (O (25 - i)%nat ltac:(lia) ltac:(lia)).
    replace (25 - (25 - i))%nat with i in O by lia. exact O.
  - rewrite pt_flipP by (auto; lia). replace (25 - 0)%nat with 25%nat by lia. lia.
Qed.
Lemma last_six s q f : wf N q -> last_mirror s q -> may_move q 6 f -> last_mirror s (mv q 6 f) /\ neg_same q (mv q 6 f).
Proof.
  intros W (S & X & O & B) M. assert (V : valid_die 6) by (cbv; lia). pose proof (wf_len W) as L.
  pose proof M as (R & P & _ & Mo & _). assert (F : (f <= 24)%nat). { destruct (Nat.eq_dec f 25) as [->|]; lia. }
  pose proof (O f ltac:(lia) P) as Sf. unfold six_points in Sf.
  destruct (le_lt_dec f 6) as [H6|H6].
  - (* borne off *)
    assert (E : forall i, (1 <= i <= 25)%nat -> pt (mv q 6 f) i = pt q i - (if (i =? f)%nat then 1 else 0)).
    { intros i I. rewrite pt_mv1 by auto. destruct (Nat.eqb_spec i f) as [->|]; [lia|]. destruct (Nat.ltb_spec 6 f); [lia|]. cbn [andb]. lia. }
    assert (E0 : pt (mv q 6 f) 0 = pt q 0). { rewrite pt_mv0 by auto. destruct (Nat.ltb_spec 6 f); [lia|]. cbn [andb]. lia. }
    split; [split; [auto|split; [|split]]|].
    + intros i I. destruct (Nat.eq_dec i 0) as [->|]; [rewrite E0; apply X; lia|]. rewrite E by lia. specialize (X i I).
      destruct (Nat.eqb_spec i f) as [->|]; lia.
    + intros i I Pi. apply O; auto. rewrite E in Pi by lia. destruct (i =? f)%nat; lia.
    + rewrite E by lia. eqs.
    + intros i I. destruct (Nat.eq_dec i 0) as [->|]; [rewrite E0; reflexivity|]. rewrite E by lia.
      destruct (Nat.eqb_spec i f) as [->|]; lia.
  - assert (Q : 0 <= pt q (f - 6)) by (apply X; lia).
    destruct (q1 q 6 f W V ltac:(lia) P ltac:(lia) Q) as (_ & _ & Ns & E0 & E).
    split; [split; [auto|split; [|split]]|exact Ns].
    + intros i I. destruct (Nat.eq_dec i 0) as [->|]; [rewrite E0; apply X; lia|]. rewrite E by lia. specialize (X i I). eqs; subst; lia.
    + intros i I Pi. rewrite E in Pi by lia. destruct (Nat.eqb_spec i (f - 6)) as [->|].
      * unfold six_points. lia.
      * apply O; auto. destruct (i =? f)%nat; lia.
    + rewrite E by lia. eqs.
Qed.
Lemma last_sixes s n : forall q r, wf N q -> last_mirror s q -> plays (repeat 6%nat n) q r -> last_mirror s r /\ neg_same q r.
Proof.
  assert (V : valid_die 6) by (cbv; lia).
  induction n as [|n IH]; intros q r W H P; cbn [repeat] in P.
  - inversion P; subst. split; auto. intros i I. reflexivity.
  - apply (plays_cons_iff (repeat 6%nat n) r W V) in P. destruct P as (f & M & P).
    destruct (last_six s q f W H M) as (H1 & N1). destruct (IH _ _ (may_wf W V M) H1 P) as (H2 & N2).
    split; auto. eapply neg_trans; eauto.
Qed.
(** x bears off with sixes. *)
Lemma home_sixes n : forall p r, wf N p -> all_home p -> plays (repeat 6%nat n) p r ->
  all_home r /\ pt r 0 = pt p 0 /\ neg_same p r.
Proof.
  assert (V : valid_die 6) by (cbv; lia).
  induction n as [|n IH]; intros p r W H P; cbn [repeat] in P.
  - inversion P; subst. split; auto. split; auto. intros i I. reflexivity.
  - apply (plays_cons_iff (repeat 6%nat n) r W V) in P. destruct P as (f & M & P). pose proof (wf_len W) as L.
    destruct (home_mv p 6 f L V H M) as (H1 & F). destruct (IH _ _ (may_wf W V M) H1 P) as (H2 & B2 & N2).
    assert (E0 : pt (mv p 6 f) 0 = pt p 0). { rewrite pt_mv0 by auto. destruct (Nat.ltb_spec 6 f); [lia|]. cbn [andb]. lia. }
    split; auto. split; [lia|]. eapply neg_trans; [|exact N2]. pose proof M as (_ & Pf & _).
    intros i I. destruct (Nat.eq_dec i 0) as [->|]; [rewrite E0; reflexivity|]. rewrite pt_mv1 by (auto; lia).
    destruct (Nat.eqb_spec i f) as [->|]; [lia|]. destruct (Nat.ltb_spec 6 f); [lia|]. reflexivity.
Qed.
Lemma pos_pips ds p r : wf N p -> Forall valid_die ds -> plays ds p r -> (1 <= length ds)%nat -> x_pips r < x_pips p.
Proof. intros W V P Ln. pose proof (plays_less _ ds p r W V P). lia. Qed.
Lemma last_fin n : forall s p, wf N p -> x_pips p <= Z.of_nat n -> last_phase s p -> fin p.
Proof.
  assert (V6 : valid_die 6) by (cbv; lia).
  induction n as [n IH] using lt_wf_ind. intros s p W Xp H.
  destruct (over_dec' k p) as [O|O]; [apply vongoing_tag in O|exists 0%nat, (tag k p); split; [constructor|auto]].
  destruct O as (O1 & O2). pose proof H as (S & X & Oh & B).
  (* it is enough to find a play that keeps the phase *)
  assert (G : forall d ds r, valid_dice d -> legal_play d p ds r -> x_pips r < x_pips p -> last_phase s r -> fin p).
  { intros d ds r V L Lt Hr. apply (fin_step p d ds r W V L). pose proof (legal_wf p d ds r W V L) as Wr.
    pose proof (flipP_wf Wr) as Wf. destruct (some_legal N (flipP r) (Double 6) Wf V6) as (ds2 & r2 & L2).
    apply (fin_step (flipP r) (Double 6) ds2 r2 Wf V6 L2). pose proof (legal_wf _ (Double 6) _ _ Wf V6 L2) as W2.
    destruct L2 as (U2 & P2 & _). rewrite (FinishFacts.uses_double _ _ U2) in P2.
    destruct (last_sixes s _ _ _ Wf (last_flip s r (wf_len Wr) Hr) P2) as (H2 & N2).
    assert (E : x_pips (flipP r2) = x_pips r).
    { rewrite x_pips_flip by apply W2. rewrite (neg_pips _ _ N2). apply o_pips_flip, Wr. }
    pose proof (x_pips_nonneg r). apply (IH (Z.to_nat (x_pips r)) ltac:(lia) s); [apply flipP_wf; auto|lia|].
    apply last_unflip; auto. apply W2. }
  destruct (all_home_dec p) as [Hh|(f0 & F0 & P0)].
  - destruct (some_legal N p (Double 6) W V6) as (ds & r & L). pose proof L as (U & P & Mx & _).
    pose proof (FinishFacts.uses_double _ _ U) as Ed. assert (Vd : Forall valid_die ds) by (apply (@uses_valid (Double 6)); auto).
    assert (Ln : (1 <= length ds)%nat).
    { destruct (six_home p W O1 Hh) as (f & M). apply (Mx [6%nat] (mv p 6 f)).
      - exists [6; 6; 6]%nat. apply Permutation_refl.
      - apply (plays_one (mv p 6 f) W V6). eauto. }
    pose proof P as P'. rewrite Ed in P'. destruct (home_sixes _ p r W Hh P') as (Hr & B0 & Nr).
    apply (G (Double 6) ds r V6 L); [eapply pos_pips; eauto|]. split; auto. split; [intros i I; apply Hr; lia|]. split; [|lia].
    intros i I Pi. apply Oh; auto. specialize (Nr i ltac:(lia)). lia.
  - (* s = 3, a checker on 7 or 8 *)
    destruct (rearmost N p W O1) as (f & Rf & Pf & Fb).
    assert (Hf : (7 <= f)%nat). { destruct (le_lt_dec 7 f); auto. specialize (Fb f0 ltac:(lia)). lia. }
    assert (Hs : (f <= s + 5)%nat). { destruct (le_lt_dec f (s + 5)); auto. specialize (X f ltac:(lia)). lia. }
    assert (S3 : s = 3%nat) by lia. assert (B25 : pt p 25 <= 0) by (apply X; lia).
    assert (Nn : forall i, (4 <= i <= 6)%nat -> 0 <= pt p i).
    { intros i I. destruct (Z_lt_le_dec (pt p i) 0) as [L|]; auto. specialize (Oh i ltac:(lia) L). unfold six_points in Oh. lia. }
    destruct (q1 p 2 f W ltac:(cbv; lia) ltac:(lia) Pf ltac:(auto) (Nn (f - 2)%nat ltac:(lia))) as (M1 & W1 & N1 & E01 & E1).
    assert (A1 : 0 < pt (mv p 2 f) (f - 2)) by (rewrite E1 by lia; specialize (Nn (f - 2)%nat ltac:(lia)); eqs).
    assert (A2 : 0 <= pt (mv p 2 f) (f - 2 - 1)) by (rewrite E1 by lia; specialize (Nn (f - 2 - 1)%nat ltac:(lia)); eqs).
    assert (A3 : pt (mv p 2 f) 25 <= 0) by (rewrite E1 by lia; eqs).
    destruct (q1 (mv p 2 f) 1 (f - 2)%nat W1 ltac:(cbv; lia) ltac:(lia) A1 ltac:(auto) A2) as (M2 & W2 & N2 & E02 & E2).
    assert (P : plays [2; 1]%nat p (mv (mv p 2 f) 1 (f - 2))).
    { apply (plays_cons_iff [1%nat] _ W); [cbv; lia|]. exists f. split; auto. apply (plays_one _ W1); [cbv; lia|]. eauto. }
    apply (G (roll_of 2 1) [2; 1]%nat _ ltac:(cbv; lia) (two_legal p 2 1 _ ltac:(lia) P)).
    + assert (Vl : Forall valid_die [2; 1]%nat) by (apply Forall_cons; [cbv; lia|apply Forall_cons; [cbv; lia|apply Forall_nil]]).
      apply (pos_pips [2; 1]%nat p _ W Vl P). cbn; lia.
    + pose proof (neg_trans _ _ _ N1 N2) as Nr. split; auto. split; [|split].
      * intros i I. rewrite E2, E1 by lia. specialize (X i I). eqs; subst; lia.
      * intros i I Pi. apply Oh; auto. specialize (Nr i ltac:(lia)). lia.
      * lia.
Qed.
End Turns.
