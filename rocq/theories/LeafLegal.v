(** Leaves against the rules: every legal result is a leaf, its steps apply to it. *)
From Verif Require Import PipFacts VariantFacts EqFacts DoubleProof MixedProof Commute MoveGenProof SpecMoveText MoveTextFacts LeafFacts.
Open Scope Z_scope.

Lemma leaf_exists N ds : forall p, wf N p -> Forall valid_die ds -> exists st q, leaf ds p st q.
Proof.
  induction ds as [|d ds IH]; intros p W V.
  - exists [], p. constructor.
  - inversion V as [|? ? Vd Vs]; subst. destruct (anyb p d) eqn:A.
    + apply (anyb_true W Vd) in A. destruct A as (a & M).
      destruct (IH _ (may_wf W Vd M) Vs) as (st & q & L). exists (step a (a - d) :: st), q. constructor; auto.
    + pose proof (proj1 (anyb_false W Vd) A) as No. destruct (IH p W Vs) as (st & q & L). exists st, q. apply leaf_skip; auto.
Qed.

(** ** Doubles *)
Section Doubles.
  Context (d : nat) (Vd : valid_die d).

  Lemma leaf_seq N n : forall p st q, wf N p -> leaf (repeat d n) p st q ->
    exists l, legal_seq d l p /\ q = run d l p /\ st = map (fun a => step a (a - d)) l /\ (length l <= n)%nat /\
      ((length l < n)%nat -> T d 0 q).
  Proof.
    induction n as [|n IH]; intros p st q W L; cbn [repeat] in L.
    - inversion L; subst. exists []. simpl. split; [auto|]. split; [auto|]. split; [auto|]. split; [lia|]. intros X. lia.
    - inversion L as [|? ? ? a st' ? M L'|? ? ? ? ? No L']; subst.
      + destruct (IH _ _ _ (may_wf W Vd M) L') as (l & S & -> & -> & Len & TT). exists (a :: l). simpl.
        split; [auto|]. split; [auto|]. split; [auto|]. split; [lia|]. intros H. apply TT. lia.
      + destruct (IH _ _ _ W L') as (l & S & -> & -> & Len & TT). destruct l as [|a l].
        * exists []. simpl. split; [auto|]. split; [auto|]. split; [auto|]. split; [lia|]. intros _. exact No.
        * simpl in S. destruct S as (M & _). exfalso. exact (No a M).
  Qed.
  Lemma seq_leaf n : forall l p, legal_seq d l p -> (length l <= n)%nat -> ((length l < n)%nat -> T d 0 (run d l p)) ->
    leaf (repeat d n) p (map (fun a => step a (a - d)) l) (run d l p).
  Proof.
    induction n as [|n IH]; intros l p S Len TT; cbn [repeat].
    - destruct l; [constructor|simpl in Len; lia].
    - destruct l as [|a l]; simpl in *.
      + apply leaf_skip; [apply TT; lia|]. apply (IH [] p); simpl; auto. lia.
      + destruct S as (M & S). constructor; auto. apply IH; auto; [lia|]. intros H. apply TT. lia.
  Qed.
  Lemma T_run N l : forall n p, wf N p -> T d n p -> legal_seq d l p -> length l = n -> T d 0 (run d l p).
  Proof.
    induction l as [|a l IH]; intros n p W TT S Len; simpl in *.
    - subst. exact TT.
    - destruct S as (M & S). destruct (T_step Vd n W TT M) as (k & -> & Tk). eapply IH; eauto. eapply may_wf; eauto.
  Qed.
  Lemma leaf_max N p st q : wf N p -> leaf [d; d; d; d] p st q -> max_moves d p 4 (length st) /\
    exists l, length l = length st /\ legal_seq d l p /\ q = run d l p.
  Proof.
    intros W L. change [d; d; d; d] with (repeat d 4) in L.
    destruct (leaf_seq 4 W L) as (l & S & -> & -> & Len & TT). rewrite map_length. split; [|eauto].
    destruct (Nat.eq_dec (length l) 4) as [E|E].
    - left. split; auto. exists l. auto.
    - right. split; [lia|]. pose proof (T_prepend d l 0 p S (TT ltac:(lia))) as X. rewrite Nat.add_0_r in X. exact X.
  Qed.
  Lemma leaf_legal_double N p st q : wf N p -> leaf [d; d; d; d] p st q -> legal_result (Double d) p q.
  Proof. intros W L. destruct (leaf_max W L) as (M & X). apply (legal_double q Vd W M). exact X. Qed.
  Lemma legal_leaf_double N p r : wf N p -> legal_result (Double d) p r -> exists st, leaf [d; d; d; d] p st r.
  Proof.
    intros W R. assert (Vo : Forall valid_die [d; d; d; d]) by (repeat (constructor; [exact Vd|]); constructor).
    destruct (leaf_exists W Vo) as (st & q & L).
    destruct (leaf_max W L) as (M & _). apply (legal_double r Vd W M) in R. destruct R as (l & Len & S & ->).
    exists (map (fun a => step a (a - d)) l). change [d; d; d; d] with (repeat d 4). 
    destruct M as [(E & _)|(Lt & TT)].
    - apply seq_leaf; auto; lia.
    - apply seq_leaf; auto; [lia|]. intros _. eapply T_run; eauto.
  Qed.
End Doubles.

(** ** Mixed rolls *)
Lemma leaf_two N p a b r : wf N p -> valid_die a -> valid_die b -> plays [a; b] p r -> exists st, leaf [a; b] p st r.
Proof.
  intros W Va Vb P. apply (plays_two r W Va Vb) in P. destruct P as (x & y & M1 & M2 & ->).
  eexists. apply leaf_move; eauto. apply leaf_move; eauto. constructor.
Qed.

Lemma no_two_skip N p b s : wf N p -> valid_die b -> valid_die s -> (forall r', ~ two b s p r') ->
  forall a, may_move p b a -> forall c, ~ may_move (mv p b a) s c.
Proof.
  intros W Vb Vs H a M c M'. apply (H (mv (mv p b a) s c)). left. apply (plays_two _ W Vb Vs). eauto.
Qed.

Lemma legal_leaf_mixed N p b s r : wf N p -> valid_dice (Mixed b s) -> legal_result (Mixed b s) p r ->
  (exists st, leaf [b; s] p st r) \/ (plays [s; b] p r /\ exists st, leaf [s; b] p st r).
Proof.
  intros W (Vb & Vs & Lt) R. apply legal_mixed in R; auto.
  destruct R as [[P|P]|[(N2 & P)|[(N2 & Nb & P)|(N2 & Nb & Ns & ->)]]].
  - left. eapply leaf_two; eauto.
  - right. split; auto. eapply leaf_two; eauto.
  - left. apply (plays_one r W Vb) in P. destruct P as (a & M & ->). eexists. apply leaf_move; eauto.
    apply leaf_skip; [|constructor]. eapply no_two_skip; eauto.
  - left. apply (plays_one r W Vs) in P. destruct P as (a & M & ->). eexists. apply leaf_skip.
    + intros c Mc. apply (Nb (mv p b c)). apply (plays_one _ W Vb). eauto.
    + apply leaf_move; eauto. constructor.
  - left. exists []. apply leaf_skip; [|apply leaf_skip; [|constructor]].
    + intros c Mc. apply (Nb (mv p b c)). apply (plays_one _ W Vb). eauto.
    + intros c Mc. apply (Ns (mv p s c)). apply (plays_one _ W Vs). eauto.
Qed.

(** Every legal result is a leaf in one of the orders. *)
Lemma legal_leaf N p d r : wf N p -> valid_dice d -> legal_result d p r ->
  exists o st, In o (die_orders d) /\ leaf o p st r.
Proof.
  intros W V R. destruct d as [b s|a].
  - destruct (legal_leaf_mixed W V R) as [(st & L)|(_ & st & L)].
    + exists [b; s], st. simpl. auto.
    + exists [s; b], st. simpl. auto.
  - destruct (legal_leaf_double V W R) as (st & L). exists [a; a; a; a], st. simpl. auto.
Qed.

Lemma order_valid d o : valid_dice d -> In o (die_orders d) -> Forall valid_die o.
Proof.
  intros V I. destruct d as [b s|a]; simpl in I.
  - destruct V as (Vb & Vs & _). destruct I as [<-|[<-|[]]]; (constructor; [assumption|constructor; [assumption|constructor]]).
  - destruct I as [<-|[]]. repeat (constructor; [exact V|]). constructor.
Qed.

(** Steps of a leaf can be assigned to the dice. *)
Lemma step_matches a d : step_matches_die (step a (a - d)) d = true.
Proof.
  unfold step_matches_die. cbn. destruct (Nat.eqb_spec (a - d) 0).
  - apply Nat.leb_le. lia.
  - apply andb_true_iff. split; [apply Nat.ltb_lt; lia|apply Nat.eqb_refl].
Qed.
Lemma leaf_runs buf ds : forall js p st q, Forall2 (fun j d => nth_error buf j = Some d) js ds -> leaf ds p st q ->
  exists is, runs buf st is p q /\ incl is js /\ (NoDup js -> NoDup is) /\ length is = length st.
Proof.
  induction ds as [|d ds IH]; intros js p st q F L; inversion F as [|j ? js' ? Ej F']; subst.
  - inversion L; subst. exists []. split; [constructor|]. repeat split; auto. intros x [].
  - inversion L as [|? ? ? a st' ? M L'|? ? ? ? ? No L']; subst.
    + destruct (IH _ _ _ _ F' L') as (is & R & I & ND & Len). exists (j :: is). split.
      * apply runs_cons with (die := d); [exact Ej|apply step_matches|exact M|exact R].
      * split; [intros x [<-|X]; [left; auto|right; auto]|]. split; [|simpl; congruence].
        intros N. inversion N; subst. constructor; auto.
    + destruct (IH _ _ _ _ F' L') as (is & R & I & ND & Len). exists is. split; auto.
      split; [intros x X; right; auto|]. split; auto. intros N. inversion N; subst; auto.
Qed.
Lemma leaf_runs_order d o p st q : In o (die_orders d) -> leaf o p st q ->
  exists is, fresh (len_of d) 0 is /\ runs (buf_of d) st is p q /\ length is = length st.
Proof.
  intros I L.
  assert (G : exists js, Forall2 (fun j x => nth_error (buf_of d) j = Some x) js o /\ NoDup js /\ Forall (fun j => (j < len_of d)%nat) js).
  { destruct d as [b s|a]; simpl in I; unfold len_of; simpl.
    - destruct I as [<-|[<-|[]]].
      + exists [0; 1]%nat. split; [repeat constructor|]. split; [repeat constructor; simpl; lia|repeat constructor; lia].
      + exists [1; 0]%nat. split; [repeat constructor|]. split; [repeat constructor; simpl; lia|repeat constructor; lia].
    - destruct I as [<-|[]]. exists [0; 1; 2; 3]%nat. split; [repeat constructor|].
      split; [repeat constructor; simpl; lia|repeat constructor; lia]. }
  destruct G as (js & F & N & B). destruct (leaf_runs _ F L) as (is & R & Inc & ND & Len). exists is.
  split; [|auto]. split; [auto|]. rewrite Forall_forall in *. intros i Ii. split; [auto|]. apply bit_set_0.
Qed.
Lemma fresh_full len is : fresh len 0 is -> length is = len -> forall i, (i < len)%nat -> In i is.
Proof.
  intros (N & F) L i Hi. assert (incl (seq 0 len) is) as H.
  { apply NoDup_length_incl; auto; [rewrite seq_length; lia|].
    intros j Ij. rewrite Forall_forall in F. apply in_seq. destruct (F j Ij). lia. }
  apply H. apply in_seq. lia.
Qed.
Lemma runs_length buf st is p q : runs buf st is p q -> length is = length st.
Proof. induction 1; simpl; congruence. Qed.

(** A move of the small die alone never gives the same position as a play of both. *)
Lemma small_not_two N p b s f : wf N p -> valid_die b -> valid_die s -> (s < b)%nat -> may_move p s f ->
  ~ two b s p (mv p s f).
Proof.
  intros W Vb Vs Lt M T.
  pose proof (x_pips_mv W Vs (may_move_pre M)) as X. pose proof (mv_xoff p s f) as XO. pose proof (may_move_range M) as Rf.
  destruct T as [P|P].
  - apply (plays_two _ W Vb Vs) in P. destruct P as (a & c & M1 & M2 & E).
    pose proof (x_pips_mv W Vb (may_move_pre M1)) as X1. pose proof (mv_xoff p b a) as XO1.
    pose proof (x_pips_mv (may_wf W Vb M1) Vs (may_move_pre M2)) as X2. pose proof (mv_xoff (mv p b a) s c) as XO2.
    pose proof (may_move_range M1). pose proof (may_move_range M2). rewrite <- E in *.
    destruct (Nat.leb_spec f s), (Nat.leb_spec a b), (Nat.leb_spec c s); lia.
  - apply (plays_two _ W Vs Vb) in P. destruct P as (a & c & M1 & M2 & E).
    pose proof (x_pips_mv W Vs (may_move_pre M1)) as X1. pose proof (mv_xoff p s a) as XO1.
    pose proof (x_pips_mv (may_wf W Vs M1) Vb (may_move_pre M2)) as X2. pose proof (mv_xoff (mv p s a) b c) as XO2.
    pose proof (may_move_range M1). pose proof (may_move_range M2). rewrite <- E in *.
    destruct (Nat.leb_spec f s), (Nat.leb_spec a s), (Nat.leb_spec c b); lia.
Qed.

(** If a play of both dice exists, legal results are such plays. *)
Lemma legal_two p b s r r' : (s < b)%nat -> legal_result (Mixed b s) p r -> two b s p r' -> two b s p r.
Proof.
  intros Lt R T. apply legal_mixed in R; auto. destruct R as [X|[(N & _)|[(N & _)|(N & _)]]]; auto; exfalso; eapply N; eauto.
Qed.

(** The steps found for a legal result apply to it. *)
Definition first_leaf (d : dice) (o : list nat) (p r : position) : Prop :=
  match d with
  | Double a => o = [a; a; a; a]
  | Mixed b s => o = [b; s] \/ (o = [s; b] /\ forall st, ~ leaf [b; s] p st r)
  end.

Lemma leaf_apply m N p d o st r : wf N p -> valid_dice d -> legal_result d p r -> leaf o p st r -> first_leaf d o p r ->
  core m p d st = Ret (Some (flipP r)).
Proof.
  intros W V R L FL.
  assert (Io : In o (die_orders d)).
  { destruct d; simpl in *; [destruct FL as [->|(-> & _)]; auto|subst; auto]. }
  pose proof (order_valid _ _ V Io) as Vo.
  destruct (core_ret m d W V (leaf_on_board Vo L)) as (res & E & H).
  destruct (leaf_runs_order _ Io L) as (is0 & F0 & R0 & Len0).
  rewrite E. destruct res as [r'|].
  { destruct H as (is & q & F & Rn & _ & -> & _). rewrite (runs_fun Rn R0). reflexivity. }
  exfalso. destruct H as [H|(is & q & i & die & a & F & Rn & Mn & Li & Ni & Ei & Ma)]; [eapply H; eauto|].
  assert (q = r) as -> by (eapply runs_fun; eauto).
  pose proof (runs_length Rn) as Len.
  assert (Full : length st <> len_of d) by (intros X; apply Ni; eapply fresh_full; eauto; congruence).
  destruct d as [b s|d0].
  - destruct V as (Vb & Vs & Lt). unfold len_of in Full, Li. cbn [pool length] in *.
    simpl in FL. destruct FL as [->|(-> & NL)].
    + inversion L as [|? ? ? x st1 ? M1 L1|? ? ? ? ? No1 L1]; subst.
      * inversion L1 as [|? ? ? y st2 ? M2 L2|? ? ? ? ? No2 L2]; subst; inversion L2; subst; [simpl in Full; lia|].
        (* big moved, small not playable *)
        destruct is as [|j [|? ?]]; try discriminate Len.
        assert (j = 0%nat) as ->.
        { assert (Hj : (hd 0%nat [j] <= 0)%nat); [|simpl in Hj; lia].
          eapply Mn; [|econstructor; [reflexivity|apply step_matches|exact M1|constructor]].
          apply fresh_cons. repeat split; try constructor; try (unfold len_of; simpl; lia). }
        destruct i as [|[|i]]; [simpl in Ni; tauto| |lia]. inversion Ei; subst. exact (No2 _ Ma).
      * inversion L1 as [|? ? ? y st2 ? M2 L2|? ? ? ? ? No2 L2]; subst; inversion L2; subst.
        -- (* only small moved *)
           destruct is as [|j [|? ?]]; try discriminate Len.
           inversion Rn as [|? die' ? ? ? ? ? Ej SM MM _]; subst.
           destruct F as (_ & F). inversion F as [|? ? (Lj & _) _]; subst.
           destruct j as [|[|j]]; [inversion Ej; subst; exact (No1 _ MM)| |unfold len_of in Lj; simpl in Lj; lia].
           destruct i as [|[|i]]; [|simpl in Ni; tauto|lia]. inversion Ei; subst die.
           assert (T : two b s p (mv (mv p s y) b a)) by (right; apply (plays_two _ W Vs Vb); eauto).
           apply (small_not_two W Vb Vs Lt M2). eapply legal_two; eauto.
        -- destruct i as [|[|i]]; [| |lia]; inversion Ei; subst; [exact (No1 _ Ma)|exact (No2 _ Ma)].
    + inversion L as [|? ? ? x st1 ? M1 L1|? ? ? ? ? No1 L1]; subst.
      * inversion L1 as [|? ? ? y st2 ? M2 L2|? ? ? ? ? No2 L2]; subst; inversion L2; subst; [simpl in Full; lia|].
        (* small moved, big not playable afterwards *)
        destruct is as [|j [|? ?]]; try discriminate Len.
        inversion Rn as [|? die' ? ? ? ? ? Ej SM MM Rr]; subst.
        destruct F as (_ & F). inversion F as [|? ? (Lj & _) _]; subst.
        destruct j as [|[|j]]; [| |unfold len_of in Lj; simpl in Lj; lia]; inversion Ej; subst die'.
        -- destruct i as [|[|i]]; [simpl in Ni; tauto| |lia]. inversion Ei; subst die.
           inversion Rr; subst. cbn [ms_from step] in *.
           assert (T : two b s p (mv (mv p b x) s a)).
           { left. apply (plays_two _ W Vb Vs). exists x, a. split; auto. split; auto. congruence. }
           apply (small_not_two W Vb Vs Lt M1). eapply legal_two; eauto.
        -- destruct i as [|[|i]]; [|simpl in Ni; tauto|lia]. inversion Ei; subst. exact (No2 _ Ma).
      * inversion L1 as [|? ? ? y st2 ? M2 L2|? ? ? ? ? No2 L2]; subst; inversion L2; subst.
        -- destruct is as [|j [|? ?]]; try discriminate Len.
           inversion Rn as [|? die' ? ? ? ? ? Ej SM MM _]; subst.
           destruct F as (_ & F). inversion F as [|? ? (Lj & _) _]; subst.
           destruct j as [|[|j]]; [|inversion Ej; subst; exfalso; exact (No1 _ MM)|unfold len_of in Lj; simpl in Lj; lia].
           destruct i as [|[|i]]; [simpl in Ni; tauto| |lia]. inversion Ei; subst die.
           assert (T : two b s p (mv (mv p b y) s a)) by (left; apply (plays_two _ W Vb Vs); eauto).
           destruct (legal_two Lt R T) as [P|P].
           ++ destruct (leaf_two W Vb Vs P) as (st' & L'). exact (NL _ L').
           ++ apply (plays_two _ W Vs Vb) in P. destruct P as (z & _ & Mz & _). exact (No1 _ Mz).
        -- destruct i as [|[|i]]; [| |lia]; inversion Ei; subst; [exact (No2 _ Ma)|exact (No1 _ Ma)].
  - simpl in FL. subst o. unfold len_of in Full, Li. cbn [pool length] in *.
    assert (die = d0) as -> by (destruct i as [|[|[|[|i]]]]; simpl in Ei; congruence || lia).
    change [d0; d0; d0; d0] with (repeat d0 4) in L. destruct (leaf_seq V 4 W L) as (l & S & Er & -> & Ll & TT).
    rewrite map_length in *. apply (TT ltac:(lia) a Ma).
Qed.
