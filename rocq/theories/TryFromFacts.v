(** [Position::<N>::try_from]. *)
From Verif Require Export GameStateFacts.
Open Scope Z_scope.

(** i8 values. *)
Definition i8_range (v : Z) : Prop := -128 <= v <= 127.

Lemma sum_i8_debug_aux l : forall s t,
  mfold (fun s z => i8 Debug (s + z)) l s = Ret t -> t = s + sumZ l.
Proof.
  induction l as [|a l IH]; intros s t H; simpl in *.
  - inversion H. lia.
  - apply bind_inv in H. destruct H as (u & E & H). apply IH in H.
    unfold i8 in E. destruct (in_i8 (s + a)); inversion E; subst. lia.
Qed.
Lemma sum_i8_debug l t : sum_i8 Debug l = Ret t -> t = sumZ l.
Proof. intros H. apply sum_i8_debug_aux in H. lia. Qed.

Lemma sum_i8_debug_range l : forall s t, i8_range s ->
  mfold (fun s z => i8 Debug (s + z)) l s = Ret t -> i8_range t.
Proof.
  induction l as [|a l IH]; intros s t R H; simpl in *.
  - inversion H. subst. auto.
  - apply bind_inv in H. destruct H as (u & E & H). apply IH in H; auto.
    unfold i8, in_i8 in E.
    destruct (Z.leb_spec (-128) (s + a)), (Z.leb_spec (s + a) 127); inversion E; subst.
    split; lia.
Qed.

Lemma sumZ_filter_neg l :
  sumZ (filter (fun v => v <? 0) l) = - sumZ (map (fun v => Z.max 0 (- v)) l).
Proof.
  induction l as [|a l IH]; simpl; auto.
  destruct (Z.ltb_spec a 0); simpl; rewrite IH; lia.
Qed.

Lemma sum_i8_neg_aux m l : forall s,
  (forall v, In v l -> v <= 0) -> s <= 0 -> -128 <= s + sumZ l ->
  mfold (fun s z => i8 m (s + z)) l s = Ret (s + sumZ l).
Proof.
  induction l as [|a l IH]; intros s Hv Hs Hb; simpl in *.
  - f_equal. lia.
  - assert (a <= 0) by (apply Hv; auto).
    assert (sumZ l <= 0).
    { assert (Hl : forall v, In v l -> v <= 0) by auto. clear -Hl.
      induction l as [|b l IH]; simpl; [lia|]. pose proof (Hl b (or_introl eq_refl)).
      assert (sumZ l <= 0) by (apply IH; intros; apply Hl; right; auto). lia. }
    rewrite i8_ret by lia. simpl. rewrite IH; auto; try lia. f_equal; lia.
Qed.

Lemma try_from_ok m N ps sx so :
  1 <= N <= 127 -> length ps = 26%nat ->
  sum_i8 m (filter (fun v => 0 <? v) ps) = Ret sx -> sx = x_count ps -> sx <= 127 ->
  sum_i8 m (filter (fun v => v <? 0) ps) = Ret so -> so = - o_count ps -> -128 <= so ->
  exists r, try_from m N ps = Ret r /\ try_answer N ps r.
Proof.
  intros HN L E1 X1 X2 E2 O1 O2. unfold try_from. rewrite E1, bind_ret, as_i8_id by lia.
  assert (P1 : 0 <= x_count ps) by (apply sumZ_nonneg; intros; lia).
  assert (P2 : 0 <= o_count ps) by (apply sumZ_nonneg; intros; lia).
  rewrite i8_ret by lia. rewrite bind_ret, E2, bind_ret.
  rewrite i8_ret by lia. rewrite bind_ret.
  destruct (Z.ltb_spec (N - sx) 0).
  { eexists; split; [reflexivity|]. simpl. intros (A & _). lia. }
  destruct (Z.ltb_spec (N + so) 0).
  { eexists; split; [reflexivity|]. simpl. intros (_ & A & _). lia. }
  unfold X_BAR, O_BAR. rewrite (index_ret _ 0) by lia. rewrite bind_ret.
  destruct (Z.ltb_spec (nth 25 ps 0) 0).
  { eexists; split; [reflexivity|]. simpl. intros (_ & _ & A & _). lia. }
  rewrite (index_ret _ 0) by lia. rewrite bind_ret.
  destruct (Z.ltb_spec 0 (nth 0 ps 0)).
  { eexists; split; [reflexivity|]. simpl. intros (_ & _ & _ & A). lia. }
  eexists; split; [reflexivity|]. unfold try_answer. rewrite !as_u8_id by lia. simpl.
  split; [unfold acceptable; lia|].
  split; [|repeat split; lia].
  constructor; simpl; auto; try lia.
  - unfold x_checkers. simpl. fold (x_count ps). lia.
  - unfold o_checkers. simpl. fold (o_count ps). lia.
Qed.

Lemma try_from_bounded m N ps : 1 <= N <= 127 -> length ps = 26%nat ->
  x_count ps <= 127 -> o_count ps <= 128 ->
  exists r, try_from m N ps = Ret r /\ try_answer N ps r.
Proof.
  intros HN L X O.
  assert (S1 : sum_i8 m (filter (fun v => 0 <? v) ps) = Ret (x_count ps)).
  { rewrite sum_i8_ret; [f_equal; apply sumZ_filter_pos| |rewrite sumZ_filter_pos; exact X].
    intros v Hv. apply filter_In in Hv. destruct Hv as [_ Hv]. apply Z.ltb_lt in Hv. lia. }
  assert (S2 : sum_i8 m (filter (fun v => v <? 0) ps) = Ret (- o_count ps)).
  { unfold sum_i8. rewrite sum_i8_neg_aux.
    - f_equal. rewrite sumZ_filter_neg. fold (o_count ps). lia.
    - intros v Hv. apply filter_In in Hv. destruct Hv as [_ Hv]. apply Z.ltb_lt in Hv. lia.
    - lia.
    - rewrite sumZ_filter_neg. fold (o_count ps). lia. }
  exact (try_from_ok m ps HN L S1 eq_refl X S2 eq_refl ltac:(lia)).
Qed.

Lemma try_from_debug N ps r : 1 <= N <= 127 -> length ps = 26%nat ->
  try_from Debug N ps = Ret r -> try_answer N ps r.
Proof.
  intros HN L H. pose proof H as H'. unfold try_from in H.
  apply bind_inv in H. destruct H as (sx & E1 & H).
  apply bind_inv in H. destruct H as (xo & E2 & H).
  apply bind_inv in H. destruct H as (so & E3 & _).
  pose proof (sum_i8_debug _ E1) as S1. rewrite sumZ_filter_pos in S1.
  pose proof (sum_i8_debug _ E3) as S2. rewrite sumZ_filter_neg in S2.
  assert (R1 : i8_range sx) by (eapply sum_i8_debug_range; [|exact E1]; unfold i8_range; lia).
  assert (R2 : i8_range so) by (eapply sum_i8_debug_range; [|exact E3]; unfold i8_range; lia).
  unfold i8_range in *.
  destruct (try_from_ok Debug ps HN L E1 S1 ltac:(lia) E3 S2 ltac:(lia)) as (r' & E & A).
  rewrite H' in E. inversion E; subst. auto.
Qed.

(** [try_from] of a well-formed position's pips gives it back (with turn = true). *)
Lemma wf_acceptable N p : wf N p -> acceptable N (pips p).
Proof.
  intros W. pose proof (wf_x W) as A. pose proof (wf_o W) as B.
  unfold x_checkers in A. unfold o_checkers in B. fold (x_count (pips p)) in A.
  fold (o_count (pips p)) in B. pose proof (wf_xoff W). pose proof (wf_ooff W).
  pose proof (wf_xbar W). pose proof (wf_obar W). unfold pt in *.
  unfold acceptable. lia.
Qed.

Lemma try_from_wf m N p : wf N p ->
  try_from m N (pips p) = Ret (inr {| turn := true; pips := pips p; x_off := x_off p; o_off := o_off p |}).
Proof.
  intros W. pose proof (wf_acceptable W) as A. pose proof (wf_N W) as HN. pose proof (wf_len W) as L.
  destruct A as (A1 & A2 & A3 & A4).
  destruct (@try_from_bounded m N (pips p) HN L ltac:(lia) ltac:(lia)) as (r & E & R).
  rewrite E. destruct r as [e|q]; simpl in R; [exfalso; apply R; unfold acceptable; auto|].
  destruct R as (_ & W' & P1 & P2 & P3 & P4). f_equal. f_equal.
  pose proof (wf_x W) as X. pose proof (wf_o W) as O.
  unfold x_checkers in X. unfold o_checkers in O.
  unfold x_count in P3. unfold o_count in P4.
  destruct q as [t ps xo oo]; simpl in *. subst. f_equal; lia.
Qed.
