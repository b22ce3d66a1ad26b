(** Facts about [encode_move] and [apply_move]. *)
From Verif Require Import FibsFacts PipFacts VariantFacts EqFacts DoubleProof MixedProof Commute MoveGenProof SpecMoveText MoveTextFacts LeafFacts LeafLegal.
Open Scope Z_scope.

Lemma eqb_turn p q : position_eqb p q = true -> turn p = turn q -> p = q.
Proof.
  intros E T. apply position_eqb_iff in E. destruct E as (A & B & C). destruct p, q; simpl in *. congruence.
Qed.
Lemma eqb_refl p : position_eqb p p = true.
Proof. apply position_eqb_iff. auto. Qed.

Lemma first_order_ret {A} (f : list nat -> res (option A)) (g : list nat -> option A) orders :
  (forall o, In o orders -> f o = Ret (g o)) ->
  exists r, first_order f orders = Ret r /\
  match r with
  | Some x => exists pre o post, orders = pre ++ o :: post /\ g o = Some x /\ forall o', In o' pre -> g o' = None
  | None => forall o, In o orders -> g o = None
  end.
Proof.
  induction orders as [|o orders IH]; intros H; cbn [first_order].
  - exists None. split; auto. intros o [].
  - rewrite (H o (or_introl eq_refl)), bind_ret. destruct (g o) as [x|] eqn:G.
    + exists (Some x). split; auto. exists [], o, orders. split; auto. split; auto. intros o' [].
    + destruct IH as (r & E & R). { intros o' I. apply H. right. auto. }
      exists r. split; auto. destruct r as [x|].
      * destruct R as (pre & o1 & post & -> & Go & Hp). exists (o :: pre), o1, post. split; auto. split; auto.
        intros o' [<-|I]; auto.
      * intros o' [<-|I]; auto.
Qed.

Lemma encode_ret m N p next d : wf N p -> wf N next -> valid_dice d ->
  exists o, encode_for m p next d = Ret o /\
  match o with
  | inr st => exists ord q, In ord (die_orders d) /\ leaf ord p st q /\ position_eqb q (flipP next) = true /\
      first_leaf d ord p q
  | inl e => e = EncodeTargetNotReachable /\
      forall ord st q, In ord (die_orders d) -> leaf ord p st q -> position_eqb q (flipP next) = false
  end.
Proof.
  intros W Wn V. unfold encode_for. rewrite (flip_ret m Wn), bind_ret.
  set (t := flipP next).
  assert (G : forall o, In o (die_orders d) -> exists r, find_steps_for_target m o p t = Ret r /\
    match r with
    | Some st => exists q, leaf o p st q /\ position_eqb q t = true
    | None => forall st q, leaf o p st q -> position_eqb q t = false
    end) by (intros o I; apply (@find_ret m N t o p W); eapply order_valid; eauto).
  set (g := fun o => match find_steps_for_target m o p t with Ret r => r | _ => None end).
  destruct (@first_order_ret _ (fun order => find_steps_for_target m order p t) g (die_orders d)) as (r & E & H).
  { intros o I. destruct (G o I) as (r & E & _). unfold g. rewrite E. reflexivity. }
  rewrite E, bind_ret. destruct r as [st|].
  - exists (inr st). split; auto. destruct H as (pre & o & post & Eo & Go & Hp).
    assert (I : In o (die_orders d)) by (rewrite Eo; apply in_elt).
    destruct (G o I) as (r & Er & R). unfold g in Go. rewrite Er in Go. subst r. destruct R as (q & L & Q).
    exists o, q. split; auto. split; auto. split; auto.
    assert (Np : forall o' st', In o' pre -> ~ leaf o' p st' q).
    { intros o' st' I' L'. assert (Io : In o' (die_orders d)) by (rewrite Eo; apply in_or_app; auto).
      destruct (G o' Io) as (r & Er' & R'). specialize (Hp o' I'). unfold g in Hp. rewrite Er' in Hp. subst r.
      rewrite (R' _ _ L') in Q. discriminate. }
    clear - Eo Np. destruct d as [b s|a]; cbn [die_orders first_leaf] in *.
    + destruct pre as [|o1 [|o2 pre]]; cbn [app] in Eo.
      * left. congruence.
      * right. assert (o1 = [b; s]) by congruence. assert (o = [s; b]) by congruence. subst. split; auto.
        intros st'. apply Np. left. auto.
      * apply (f_equal (@length _)) in Eo. simpl in Eo. rewrite app_length in Eo. simpl in Eo. lia.
    + destruct pre as [|o1 pre]; cbn [app] in Eo; [congruence|].
      apply (f_equal (@length _)) in Eo. simpl in Eo. rewrite app_length in Eo. simpl in Eo. lia.
  - exists (inl EncodeTargetNotReachable). split; auto. split; auto. intros o st q I L.
    destruct (G o I) as (r & Er & R). specialize (H o I). unfold g in H. rewrite Er in H. subst r. eauto.
Qed.

Lemma legal_result_turn N p d r : wf N p -> valid_dice d -> legal_result d p r -> turn r = turn p.
Proof.
  intros W V R. destruct (legal_leaf W V R) as (o & st & _ & L). eapply leaf_turn; eauto.
Qed.

Lemma encode_legal m N p d r : wf N p -> valid_dice d -> legal_result d p r ->
  exists st, encode_for m p (flipP r) d = Ret (inr st) /\ Forall on_board st /\
    forall m', core m' p d st = Ret (Some (flipP r)).
Proof.
  intros W V R. pose proof (legal_result_wf W V R) as Wr.
  destruct (encode_ret m d W (flipP_wf Wr) V) as (o & E & H). rewrite E. destruct o as [e|st].
  - destruct H as (_ & H). destruct (legal_leaf W V R) as (o & st & I & L).
    rewrite flipP_involutive in H. pose proof (H _ _ _ I L) as X. rewrite eqb_refl in X. discriminate.
  - destruct H as (o & q & I & L & Q & F). exists st. split; auto.
    rewrite flipP_involutive in Q.
    assert (q = r) as -> by (apply eqb_turn; auto; rewrite (leaf_turn L); symmetry; eapply legal_result_turn; eauto).
    split; [exact (leaf_on_board (order_valid d o V I) L)|]. intros m'. eapply leaf_apply; eauto.
Qed.

(** What a successful [core] means. *)
Lemma runs_plays N d st : valid_dice d -> forall is p q, wf N p -> Forall (fun i => (i < len_of d)%nat) is ->
  runs (buf_of d) st is p q ->
  exists ds, plays ds p q /\ Forall2 (fun i x => nth_error (pool d) i = Some x) is ds /\ length ds = length st.
Proof.
  intros V. induction st as [|s st IH]; intros is p q W F R; inversion R as [|i die ? ? is' ? ? Ei SM M R']; subst.
  - exists []. split; [constructor|]. split; [constructor|auto].
  - inversion F as [|? ? Fi F']; subst. destruct (buf_valid d V Fi) as (die' & Ei' & Vd).
    assert (die' = die) as -> by congruence.
    destruct (IH is' (mv p die (ms_from s)) q (may_wf W Vd M) F' R') as (ds & P & F2 & Len). exists (die :: ds).
    split; [apply (plays_cons_iff ds q W Vd); eauto|]. split; [|simpl; congruence]. constructor; auto.
    rewrite <- buf_pool by auto. exact Ei.
Qed.

Lemma picks_uses (l : list nat) : forall is ds, NoDup is ->
  Forall2 (fun i x => nth_error l i = Some x) is ds -> exists rest, Permutation.Permutation (ds ++ rest) l /\
  forall x, In x rest -> exists i, ~ In i is /\ nth_error l i = Some x.
Proof.
  intros is ds ND F.
  assert (Hlt : forall i, In i is -> (i < length l)%nat).
  { intros i I. apply nth_error_Some. revert I. clear ND. induction F; intros []; subst; auto. congruence. }
  set (js := filter (fun j => negb (existsb (Nat.eqb j) is)) (seq 0 (length l))).
  assert (In_js : forall j, In j js <-> (j < length l)%nat /\ ~ In j is).
  { intros j. unfold js. rewrite filter_In, in_seq, negb_true_iff, <- not_true_iff_false, existsb_exists. split.
    - intros (A & B). split; [lia|]. intros I. apply B. exists j. split; auto. apply Nat.eqb_refl.
    - intros (A & B). split; [lia|]. intros (k & Ik & Ek). apply Nat.eqb_eq in Ek. subst. auto. }
  exists (map (fun j => nth j l 0%nat) js). split.
  - assert (Eds : ds = map (fun j => nth j l 0%nat) is).
    { clear - F. induction F; simpl; auto. rewrite IHF. f_equal. symmetry. apply nth_error_nth. auto. }
    rewrite Eds, <- map_app.
    assert (El : l = map (fun j => nth j l 0%nat) (seq 0 (length l))).
    { apply nth_ext with (d := 0%nat) (d' := 0%nat); [rewrite map_length, seq_length; auto|]. intros n Hn.
      rewrite nth_indep with (d' := nth 0 l 0%nat) (n := n) (l := map _ _) by (rewrite map_length, seq_length; auto).
      rewrite (map_nth (fun j => nth j l 0%nat)), seq_nth by auto. reflexivity. }
    apply Permutation.Permutation_trans with (l' := map (fun j => nth j l 0%nat) (seq 0 (length l)));
      [apply Permutation.Permutation_map|rewrite <- El; apply Permutation.Permutation_refl].
    apply Permutation.NoDup_Permutation.
    + clear - ND In_js. revert In_js. assert (NJ : NoDup js) by (apply NoDup_filter, seq_NoDup). revert NJ.
      generalize js. clear js. intros js NJ H.
      assert (D : forall x, In x is -> ~ In x js) by (intros x I J; apply H in J; tauto).
      clear H. induction is as [|i is IH]; simpl; auto. inversion ND; subst. constructor.
      * rewrite in_app_iff. intros [I|I]; [auto|]. apply (D i); [left; auto|auto].
      * apply IH; auto. intros x I. apply D. right. auto.
    + apply seq_NoDup.
    + intros x. rewrite in_app_iff, In_js, in_seq. split.
      * intros [I|I]; [specialize (Hlt x I); lia|lia].
      * intros I. destruct (in_dec Nat.eq_dec x is); auto. right. split; auto. lia.
  - intros x I. apply in_map_iff in I. destruct I as (j & <- & Ij). apply In_js in Ij. destruct Ij as (Lj & Nj).
    exists j. split; auto. apply nth_error_nth'. auto.
Qed.

Lemma core_some m N p d st r : wf N p -> valid_dice d -> Forall on_board st -> core m p d st = Ret (Some r) ->
  exists q ds rest, plays ds p q /\ Permutation.Permutation (ds ++ rest) (pool d) /\ length ds = length st /\
    wf N q /\ r = flipP q /\ forall x, In x rest -> forall a, ~ may_move q x a.
Proof.
  intros W V OB E. destruct (core_ret m d W V OB) as (o & E' & H). assert (o = Some r) as -> by congruence.
  destruct H as (is & q & (ND & F) & R & Wq & -> & No).
  assert (Fl : Forall (fun i => (i < len_of d)%nat) is) by (eapply Forall_impl; [|exact F]; cbv beta; tauto).
  destruct (runs_plays d V W Fl R) as (ds & P & F2 & Len).
  destruct (picks_uses _ ND F2) as (rest & Pm & Hr).
  exists q, ds, rest. split; [auto|]. split; [auto|]. split; [auto|]. split; [auto|]. split; [auto|].
  intros x I a M. destruct (Hr x I) as (i & Ni & Ei). apply (No i x) with (a := a); auto.
  unfold len_of. apply nth_error_Some. congruence.
Qed.

Lemma plays_as_plays ds st p r : plays_as ds st p r -> plays ds p r.
Proof. induction 1; econstructor; eauto. Qed.

Lemma plays_as_runs N buf : forall ds st p r js, wf N p -> Forall valid_die ds ->
  Forall2 (fun j x => nth_error buf j = Some x) js ds -> plays_as ds st p r -> runs buf st js p r.
Proof.
  intros ds st p r js W V F P. revert js W V F. induction P as [|d ds a st p q r M Mv P IH]; intros js W V F; inversion F as [|j ? js' ? Ej F']; subst.
  - constructor.
  - inversion V as [|? ? Vd Vs]; subst.
    apply moved_iff in Mv; [|apply W|eapply may_move_range; eauto|apply Vd]. subst q.
    apply runs_cons with (die := d); [exact Ej|apply step_matches|exact M|]. apply IH; auto. eapply may_wf; eauto.
Qed.

Lemma uses_picks d ds : uses d ds -> exists js, NoDup js /\ Forall2 (fun j x => nth_error (pool d) j = Some x) js ds.
Proof.
  intros (rest & P). apply Permutation.Permutation_sym in P. apply Permutation.Permutation_nth_error in P.
  destruct P as (Len & f & Inj & H). exists (map f (seq 0 (length ds))). split.
  - apply FinFun.Injective_map_NoDup; auto. apply seq_NoDup.
  - assert (G : forall l k, (forall n, (n < length l)%nat -> nth_error (pool d) (f (k + n)%nat) = nth_error l n) ->
      Forall2 (fun j x => nth_error (pool d) j = Some x) (map f (seq k (length l))) l).
    { clear. induction l as [|x l IH]; intros k H; simpl; constructor.
      - specialize (H 0%nat ltac:(simpl; lia)). rewrite Nat.add_0_r in H. exact H.
      - apply IH. intros n L. replace (S k + n)%nat with (k + S n)%nat by lia. rewrite H by (simpl; lia). reflexivity. }
    apply G. intros n L. cbn [Nat.add]. rewrite <- H. apply nth_error_app1. auto.
Qed.

Lemma core_complete m N p d ds st r : wf N p -> valid_dice d -> legal_play d p ds r -> plays_as ds st p r ->
  core m p d st = Ret (Some (flipP r)) /\ Forall on_board st.
Proof.
  intros W V (U & P & Max & _) PA. pose proof (uses_valid V U) as Vds.
  assert (OB : Forall on_board st).
  { clear - PA Vds. induction PA as [|d ds a st p q r M Mv P IH]; constructor; inversion Vds as [|? ? Vd Vs]; subst; auto.
    pose proof (may_move_range M). unfold valid_die in Vd. split; cbn; lia. }
  split; [|exact OB].
  destruct (uses_picks U) as (js & ND & F2).
  assert (Lt : Forall (fun i => (i < len_of d)%nat) js).
  { unfold len_of. clear - F2. induction F2; constructor; auto. apply nth_error_Some. congruence. }
  assert (F2' : Forall2 (fun j x => nth_error (buf_of d) j = Some x) js ds).
  { clear - F2 Lt. induction F2; constructor; inversion Lt; subst; auto. rewrite buf_pool; auto. }
  pose proof (plays_as_runs (buf_of d) W Vds F2' PA) as R.
  assert (Fr : fresh (len_of d) 0 js).
  { split; auto. eapply Forall_impl; [|exact Lt]. cbv beta. intros i L. split; [exact L|apply bit_set_0]. }
  destruct (core_ret m d W V OB) as (o & E & H). rewrite E. destruct o as [r'|].
  { destruct H as (is & q & _ & R' & _ & -> & _). rewrite (runs_fun R' R). reflexivity. }
  exfalso. destruct H as [H|(is & q & i & die & a & (NDi & Fi) & Ri & _ & Li & Ni & Ei & Ma)]; [eapply H; eauto|].
  assert (q = r) as -> by (eapply runs_fun; eauto).
  assert (Fl : Forall (fun i => (i < len_of d)%nat) is) by (eapply Forall_impl; [|exact Fi]; cbv beta; tauto).
  destruct (runs_plays d V W Fl Ri) as (ds' & P' & F' & Len').
  assert (U' : uses d (ds' ++ [die])).
  { destruct (@picks_uses (pool d) (is ++ [i]) (ds' ++ [die])) as (rest & Pm & _).
    - apply (Permutation.Permutation_NoDup (l := i :: is)); [apply Permutation.Permutation_cons_append|constructor; auto].
    - apply Forall2_app; auto.
    - exists rest. exact Pm. }
  assert (Vd : valid_die die).
  { pose proof (uses_valid V U') as X. apply Forall_app in X. destruct X as (_ & X). inversion X; auto. }
  pose proof (plays_wf_any W Vds P) as Wr.
  assert (P2 : plays (ds' ++ [die]) p (mv r die a)).
  { assert (G : forall l p, plays l p r -> plays (l ++ [die]) p (mv r die a)).
    { intros l p0 Pl. remember r as z. revert Heqz. induction Pl as [|? ? ? ? ? ? M Mv Pl IH]; intros; subst; simpl.
      - econstructor; [exact Ma| |constructor]. apply moved_iff; auto; [|eapply may_move_range; eauto|apply Vd].
        apply Wr.
      - econstructor; eauto. }
    apply G. exact P'. }
  specialize (Max _ _ U' P2). rewrite app_length in Max. simpl in Max.
  pose proof (runs_length R) as L1. pose proof (FibsFacts.Forall2_length F2) as L2. lia.
Qed.
