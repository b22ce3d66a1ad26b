(** Facts about [legal_moves]. *)
From Verif Require Import FibsFacts PipFacts VariantFacts EqFacts DoubleProof MixedProof Commute MoveGenProof SpecMoveText MoveTextFacts LeafFacts LeafLegal EncodeFacts.
Open Scope Z_scope.

(** Slot [i] is the one a leaf with board [c] is stored in. *)
Definition att (legal : list position) (c : position) (i : nat) : Prop :=
  rposition_of (position_eqb c) legal = Some i.

Lemma rposition_existsb {A} (f : A -> bool) l : existsb f l = true -> exists i, rposition_of f l = Some i.
Proof.
  induction l as [|a l IH]; simpl; [discriminate|]. intros H. destruct (rposition_of f l) as [k|] eqn:E; [eauto|].
  destruct (f a); [eauto|]. destruct (IH H) as (i & X). discriminate.
Qed.
Lemma rposition_existsb_none {A} (f : A -> bool) l : existsb f l = false -> rposition_of f l = None.
Proof.
  induction l as [|a l IH]; simpl; auto. intros H. apply orb_false_iff in H. destruct H as (A1 & A2).
  rewrite (IH A2), A1. reflexivity.
Qed.
Lemma att_lt legal c i : att legal c i -> (i < length legal)%nat /\ position_eqb c (nth i legal c) = true.
Proof. intros A. destruct (rposition_Some _ _ c A) as (L & E & _). auto. Qed.

Section Slots.
  Context (m : mode) (N : Z) (legal : list position).

  Lemma store_ret c st s : length s = length legal -> exists s', store legal c st s = Ret s' /\ length s' = length legal /\
    (forall i x, nth i s None = Some x -> nth i s' None = Some x) /\
    (forall i x, nth i s' None = Some x -> nth i s None = Some x \/ (nth i s None = None /\ x = st /\ att legal c i)) /\
    (forall i, att legal c i -> nth i s' None <> None).
  Proof.
    intros Len. unfold store. destruct (existsb (position_eqb c) legal) eqn:E.
    - destruct (rposition_existsb _ _ E) as (i & R). rewrite R. destruct (rposition_Some _ _ c R) as (L & _).
      assert (Ls : (i < length s)%nat) by lia. rewrite (index_ret s None Ls), bind_ret. destruct (nth i s None) as [x|] eqn:Nx.
      + exists s. split; auto. split; auto. split; auto. split; auto. intros j Aj. unfold att in Aj. assert (j = i) as -> by congruence. congruence.
      + rewrite (assign_ret s (Some st) Ls). exists (upd s i (Some st)). split; auto. split; [rewrite upd_length; auto|].
        assert (G : forall j, nth j (upd s i (Some st)) None = if (j =? i)%nat then Some st else nth j s None).
        { intros j. apply nth_upd. exact Ls. }
        split; [|split].
        * intros j x H. rewrite G. destruct (Nat.eqb_spec j i) as [->|Ne]; congruence.
        * intros j x H. rewrite G in H. destruct (Nat.eqb_spec j i) as [->|Ne]; auto. right. split; auto. split; [congruence|exact R].
        * intros j Aj. unfold att in Aj. assert (j = i) as -> by congruence. rewrite G, Nat.eqb_refl. discriminate.
    - exists s. split; auto. split; auto. split; auto. split; auto. intros i A. unfold att in A.
      rewrite (rposition_existsb_none _ _ E) in A. discriminate.
  Qed.

  (** What a search over the leaves satisfying [L] does to the slots. *)
  Definition fills (L : list move_step -> position -> Prop) (s s' : slots) : Prop :=
    length s' = length legal /\
    (forall i x, nth i s None = Some x -> nth i s' None = Some x) /\
    (forall i x, nth i s' None = Some x -> nth i s None = Some x \/
      (nth i s None = None /\ exists q, L x q /\ (att legal (flipP q) i \/ att legal q i))) /\
    (forall x q i, L x q -> att legal (flipP q) i \/ att legal q i -> nth i s' None <> None).

  Lemma fills_trans L1 L2 (L : list move_step -> position -> Prop) s1 s2 s3 :
    (forall x q, L x q <-> L1 x q \/ L2 x q) -> fills L1 s1 s2 -> fills L2 s2 s3 -> fills L s1 s3.
  Proof.
    intros H (A1 & A2 & A3 & A4) (B1 & B2 & B3 & B4). split; auto. split; [auto|]. split.
    - intros i x E. destruct (B3 i x E) as [E'|(E' & q & Lq & At)].
      + destruct (A3 i x E') as [E''|(E'' & q & Lq & At)]; auto. right. split; auto. exists q. rewrite H. auto.
      + right. split; [|exists q; rewrite H; auto]. destruct (nth i s1 None) as [y|] eqn:Ny; auto.
        rewrite (A2 _ _ Ny) in E'. discriminate.
    - intros x q i Lq At. apply H in Lq. destruct Lq as [Lq|Lq]; [|eauto].
      pose proof (A4 x q i Lq At) as X. destruct (nth i s2 None) as [y|] eqn:Ny; [|congruence]. rewrite (B2 _ _ Ny). discriminate.
  Qed.
  Lemma fills_iff (L L' : list move_step -> position -> Prop) s s' : (forall x q, L x q <-> L' x q) -> fills L s s' -> fills L' s s'.
  Proof.
    intros H (A1 & A2 & A3 & A4). split; auto. split; auto. split.
    - intros i x E. destruct (A3 i x E) as [E'|(E' & q & Lq & At)]; auto. right. split; auto. exists q. rewrite <- H. auto.
    - intros x q i Lq. apply (A4 x q i). apply H. auto.
  Qed.
  Lemma fills_none s : length s = length legal -> fills (fun _ _ => False) s s.
  Proof. intros Len. split; [exact Len|]. split; [tauto|]. split; [tauto|]. intros x q i []. Qed.

  Lemma each_step_ret p d (k : nat -> position -> slots -> res slots) (K : nat -> list move_step -> position -> Prop) l :
    wf N p -> valid_die d -> Forall (fun a => (a <= 25)%nat) l ->
    (forall a s, may_move p d a -> length s = length legal -> exists s', k a (mv p d a) s = Ret s' /\ fills (K a) s s') ->
    forall b s, length s = length legal ->
    exists s', each_step (fun a => try_move_single_checker m p a d) k l b s = Ret (b || existsb (legalb p d) l, s') /\
      fills (fun x q => exists a, In a l /\ may_move p d a /\ K a x q) s s'.
  Proof.
    intros W V F Hk. induction F as [|a l Al F IH]; intros b s Len; cbn [each_step existsb].
    - exists s. rewrite orb_false_r. split; auto. apply (fills_iff (L := fun _ _ => False)); [|apply fills_none; auto].
      intros x q. split; [tauto|]. intros (a & [] & _).
    - rewrite (try_ret m W V Al), bind_ret. destruct (legalb p d a) eqn:L.
      + pose proof (proj1 (legalb_may W V Al) L) as M. destruct (Hk a s M Len) as (s1 & E1 & F1). rewrite E1, bind_ret.
        destruct (IH true s1 (proj1 F1)) as (s2 & E2 & F2). exists s2. rewrite E2. split; [destruct b; reflexivity|].
        eapply fills_trans; [|exact F1|exact F2]. intros x q. split.
        * intros (a' & [<-|I] & Ma & Kq); eauto.
        * intros [Kq|(a' & I & Ma & Kq)]; [exists a; split; [left; auto|auto]|exists a'; split; [right; auto|auto]].
      + destruct (IH b s Len) as (s2 & E2 & F2). exists s2. rewrite E2. split; [reflexivity|].
        eapply fills_iff; [|exact F2]. intros x q. split.
        * intros (a' & I & R). exists a'. split; [right; auto|auto].
        * intros (a' & [<-|I] & Ma & Kq); eauto. apply (legalb_may W V Al) in Ma. congruence.
  Qed.

  Lemma collect_ret order : forall p steps s, wf N p -> Forall valid_die order -> length s = length legal ->
    exists s', collect_paths m legal order p steps s = Ret s' /\
      fills (fun x q => exists st, leaf order p st q /\ x = steps ++ st) s s'.
  Proof.
    induction order as [|d order IH]; intros p steps s W V Len; cbn [collect_paths].
    - rewrite (flip_ret m W), bind_ret. destruct (store_ret (flipP p) steps s Len) as (s1 & E1 & A1 & A2 & A3 & A4).
      rewrite E1, bind_ret. destruct (store_ret p steps s1 A1) as (s2 & E2 & B1 & B2 & B3 & B4). exists s2. split; auto.
      split; auto. split; [auto|]. split.
      + intros i x E. destruct (B3 i x E) as [E'|(E' & -> & At)].
        * destruct (A3 i x E') as [E''|(E'' & -> & At)]; auto. right. split; auto. exists p. split; auto.
          exists []. rewrite app_nil_r. split; [constructor|auto].
        * right. split; [|exists p; split; auto; exists []; rewrite app_nil_r; split; [constructor|auto]].
          destruct (nth i s None) as [y|] eqn:Ny; auto. rewrite (A2 _ _ Ny) in E'. discriminate.
      + intros x q i (st & Lf & ->) At. inversion Lf; subst. destruct At as [At|At]; [|eauto].
        pose proof (A4 i At) as X. destruct (nth i s1 None) as [y|] eqn:Ny; [|congruence]. rewrite (B2 _ _ Ny). discriminate.
    - inversion V as [|? ? Vd Vo]; subst.
      destruct (@each_step_ret p d (fun from next s => collect_paths m legal order next (steps ++ [step from (from - d)]) s)
        (fun a x q => exists st, leaf order (mv p d a) st q /\ x = (steps ++ [step a (a - d)]) ++ st) froms W Vd froms_le)
        with (b := false) (s := s) as (s1 & E1 & F1); auto.
      { intros a s0 M L0. apply IH; auto. eapply may_wf; eauto. }
      rewrite E1, bind_ret. cbn [orb]. fold (anyb p d). destruct (anyb p d) eqn:An.
      + exists s1. split; auto. eapply fills_iff; [|exact F1]. intros x q. split.
        * intros (a & I & M & st & Lf & ->). exists (step a (a - d) :: st). split; [constructor; auto|]. rewrite <- app_assoc. reflexivity.
        * intros (st & Lf & ->). inversion Lf as [|? ? ? a st' ? M Lf'|? ? ? ? ? No Lf']; subst.
          -- exists a. split; [apply in_froms; eapply may_move_range; eauto|]. split; auto. exists st'. rewrite <- app_assoc. auto.
          -- apply (anyb_true W Vd) in An. destruct An as (a & M). exfalso. exact (No a M).
      + pose proof (proj1 (anyb_false W Vd) An) as No. destruct (IH p steps s1 W Vo (proj1 F1)) as (s2 & E2 & F2).
        exists s2. split; auto. eapply fills_trans; [|exact F1|exact F2]. intros x q. split.
        * intros (st & Lf & ->). inversion Lf; subst; [exfalso; eapply No; eauto|]. right. eauto.
        * intros [(a & _ & M & _)|(st & Lf & ->)]; [exfalso; exact (No a M)|]. exists st. split; auto. apply leaf_skip; auto.
  Qed.
End Slots.

(** The searches one after the other. *)
Inductive chain (legal : list position) : list (list nat * position) -> slots -> slots -> Prop :=
| chain_nil s : chain legal [] s s
| chain_cons o P bs s s' s'' : fills legal (fun x q => leaf o P x q) s s' -> chain legal bs s' s'' ->
    chain legal ((o, P) :: bs) s s''.

Lemma chain_keep legal bs s s' : chain legal bs s s' -> forall i x, nth i s None = Some x -> nth i s' None = Some x.
Proof. induction 1 as [|o P bs s s1 s2 F C IH]; auto. intros i x E. apply IH. apply F. auto. Qed.
Lemma chain_filled legal bs s s' : chain legal bs s s' -> forall o P x q i, In (o, P) bs -> leaf o P x q ->
  att legal (flipP q) i \/ att legal q i -> nth i s' None <> None.
Proof.
  induction 1 as [|o P bs s s1 s2 F C IH]; intros o' P' x q i I L At; [destruct I|]. destruct I as [E|I]; [|eauto].
  assert (o = o') as <- by congruence. assert (P = P') as <- by congruence.
  destruct F as (_ & _ & _ & F). pose proof (F x q i L At) as X. destruct (nth i s1 None) as [y|] eqn:Ny; [|congruence].
  rewrite (chain_keep C _ Ny). discriminate.
Qed.
Lemma chain_first legal bs s s' : chain legal bs s s' -> forall i x, nth i s None = None -> nth i s' None = Some x ->
  exists pre o P post q, bs = pre ++ (o, P) :: post /\ leaf o P x q /\ (att legal (flipP q) i \/ att legal q i) /\
    forall o' P' x' q', In (o', P') pre -> leaf o' P' x' q' -> ~ (att legal (flipP q') i \/ att legal q' i).
Proof.
  induction 1 as [|o P bs s s1 s2 F C IH]; intros i x E0 E; [congruence|].
  destruct (nth i s1 None) as [y|] eqn:Ny.
  - assert (y = x) as -> by (rewrite (chain_keep C _ Ny) in E; congruence).
    destruct F as (_ & _ & F & _). destruct (F i x Ny) as [X|(_ & q & L & At)]; [congruence|].
    exists [], o, P, bs, q. split; [reflexivity|]. split; [exact L|]. split; [exact At|]. intros o' P' x' q' [].
  - destruct (IH i x Ny E) as (pre & o1 & P1 & post & q & -> & L & At & No).
    exists ((o, P) :: pre), o1, P1, post, q. split; [reflexivity|]. split; [exact L|]. split; [exact At|].
    intros o' P' x' q' [Eo|I] L' At'; [|eapply No; eauto]. assert (o = o') as <- by congruence. assert (P = P') as <- by congruence.
    destruct F as (_ & _ & _ & F). exact (F x' q' i L' At' Ny).
Qed.
Lemma chain_length legal bs s s' : length s = length legal -> chain legal bs s s' -> length s' = length legal.
Proof. intros E C. revert E. induction C as [|o P bs s s1 s2 F C IH]; auto. intros _. apply IH. apply F. Qed.

Definition blocks (d : dice) (p : position) : list (list nat * position) :=
  flat_map (fun o => [(o, p); (o, flipP p)]) (die_orders d).

Lemma search_ret m N p legal ords : wf N p -> Forall (Forall valid_die) ords -> forall s, length s = length legal ->
  exists s', mfold (fun s order =>
         s <- collect_paths m legal order p [] s ;;
         fl <- flip m p ;;
         collect_paths m legal order fl [] s) ords s = Ret s' /\
  chain legal (flat_map (fun o => [(o, p); (o, flipP p)]) ords) s s'.
Proof.
  intros W F. set (f := fun (s : slots) (order : list nat) => _).
  induction F as [|o ords Vo F IH]; intros s Len; cbn [mfold flat_map app].
  - exists s. split; auto. constructor.
  - destruct (@collect_ret m N legal o p [] s W Vo Len) as (s1 & E1 & F1).
    destruct (@collect_ret m N legal o (flipP p) [] s1 (flipP_wf W) Vo (proj1 F1)) as (s2 & E2 & F2).
    assert (Ef : f s o = Ret s2) by (unfold f; rewrite E1, bind_ret, (flip_ret m W), bind_ret; exact E2).
    rewrite Ef, bind_ret. destruct (IH s2 (proj1 F2)) as (s3 & E3 & C). exists s3. split; auto.
    econstructor; [|econstructor; [|exact C]].
    + eapply fills_iff; [|exact F1]. intros x q. split; [intros (st & L & ->); auto|intros L; exists x; auto].
    + eapply fills_iff; [|exact F2]. intros x q. split; [intros (st & L & ->); auto|intros L; exists x; auto].
Qed.

Lemma in_filled wrap legal : forall s e, length s = length legal -> In e (filled wrap legal s) <->
  exists i x, nth i s None = Some x /\ (i < length legal)%nat /\ e = (x, wrap (nth i legal (mk []))).
Proof.
  induction legal as [|c legal IH]; intros [|o s] e Len; try discriminate Len; simpl in Len.
  - simpl. split; [intros []|]. intros (i & x & _ & L & _). simpl in L. lia.
  - assert (Len' : length s = length legal) by lia. specialize (IH s e Len').
    assert (G : In e (filled wrap legal s) <-> exists i x, nth (S i) (o :: s) None = Some x /\ (S i < length (c :: legal))%nat /\
      e = (x, wrap (nth (S i) (c :: legal) (mk [])))).
    { rewrite IH. simpl. split; intros (i & x & A & B & C); exists i, x; split; auto; split; auto; lia. }
    clear IH. destruct o as [y|]; cbn [filled].
    + cbn [In]. rewrite G. split.
      * intros [<-|(i & x & A & B & C)]; [exists 0%nat, y; simpl; split; auto; split; auto; lia|exists (S i), x; auto].
      * intros ([|i] & x & A & B & C); [left; simpl in A; rewrite C; simpl; congruence|right; eauto].
    + rewrite G. split.
      * intros (i & x & A & B & C); exists (S i), x; auto.
      * intros ([|i] & x & A & B & C); [discriminate A|eauto].
Qed.
