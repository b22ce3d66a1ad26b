(** Facts about games: listed positions stay well-formed, also on finished positions. *)
From Verif Require Export SpecEpisode GameStateFacts VariantFacts.
Open Scope Z_scope.

Lemma mfilter_In {A} (f : A -> res bool) l l' : mfilter f l = Ret l' ->
  forall a, In a l' <-> In a l /\ f a = Ret true.
Proof.
  revert l'; induction l as [|b l IH]; simpl; intros l' H a.
  { inversion H. simpl. tauto. }
  apply bind_inv in H. destruct H as (c & E & H). apply bind_inv in H. destruct H as (r & E' & H).
  inversion H; subst. specialize (IH _ E' a). destruct c; simpl; rewrite IH.
  - split; [intros [->|X]; tauto|intros ([->|X] & Y); tauto].
  - split; [tauto|intros ([->|X] & Y); [congruence|tauto]].
Qed.
Lemma mfilter_ret {A} (f : A -> res bool) (g : A -> bool) l :
  (forall a, In a l -> f a = Ret (g a)) -> mfilter f l = Ret (filter g l).
Proof.
  induction l as [|a l IH]; intros H; simpl; auto. rewrite H by (left; auto). simpl.
  rewrite IH by (intros; apply H; right; auto). reflexivity.
Qed.

(** Whenever the generator returns, also on a finished position. *)
Lemma movegen_any N m p d l : wf N p -> valid_dice d -> generate_legal_positions m N p d = Ret l ->
  forall q, In q l -> exists r, legal_result d p r /\ q = flipP r.
Proof.
  intros W V H. unfold generate_legal_positions in H.
  apply bind_inv in H. destruct H as ([] & _ & H).
  assert (H' : exists l, match d with
         | Double die => all_positions_after_double_move m p die
         | Mixed big small => all_positions_after_mixed_move m p big small
         end = Ret l /\ l <> [] /\ forall r, In r l <-> legal_result d p r).
  { destruct d as [b s|a].
    - exact (mixed_correct m W V).
    - exact (double_correct m W V). }
  destruct H' as (l0 & E & Hn & H'). rewrite E, bind_ret in H.
  rewrite (mmap_ret _ flipP) in H.
  2:{ intros q Hq. apply H' in Hq. exact (flip_ret m (legal_result_wf W V Hq)). }
  rewrite bind_ret in H. rewrite debug_assert_ret in H by (destruct l0; [congruence|reflexivity]).
  rewrite bind_ret in H. inversion H; subst. intros q I. apply in_map_iff in I.
  destruct I as (r & <- & I). exists r. split; auto. apply H'; auto.
Qed.

Lemma flip_legal_wf N p d r : wf N p -> valid_dice d -> legal_result d p r -> wf N (flipP r).
Proof. intros W V L. apply flipP_wf. exact (legal_result_wf W V L). Qed.

Lemma rules_any m R k v d l : rule_set m R -> vwf k v -> valid_dice d -> R v d = Ret l ->
  forall w, In w l -> vlegal d v w.
Proof.
  intros RS (p & -> & W) V H w I. destruct RS.
  - rewrite classic_rules_tag in H. apply bind_inv in H. destruct H as (l0 & E & H).
    inversion H; subst. apply in_map_iff in I. destruct I as (q & <- & I).
    destruct (movegen_any _ _ W V E q I) as (r & L & ->).
    exists k, p, (flipP r), r. do 3 (split; auto). apply flipP_mirrored. apply (legal_result_wf W V L).
  - rewrite no_hit_rules_tag in H. apply bind_inv in H. destruct H as (l0 & E & H).
    inversion H; subst. apply in_map_iff in I. destruct I as (q & <- & I).
    unfold no_hit_positions in E. apply bind_inv in E. destruct E as (l1 & E1 & E).
    pose proof (proj1 (mfilter_In _ _ E q) I) as (I' & _).
    destruct (movegen_any _ _ W V E1 q I') as (r & L & ->).
    exists k, p, (flipP r), r. do 3 (split; auto). apply flipP_mirrored. apply (legal_result_wf W V L).
Qed.

Lemma variant_eqb_eq a b : variant_eqb a b = true <-> a = b.
Proof. destruct a, b; simpl; split; congruence. Qed.

(** What [NoHitRules] computes. *)
Lemma obar_ret m N p : wf N p -> o_bar m p = Ret (- pt p 0).
Proof.
  intros W. unfold o_bar. pose proof (wf_len W) as L. pose proof (wf_obar W). pose proof (wf_pt_bounds 0 W).
  rewrite (index_ret _ 0) by (rewrite L; unfold O_BAR; lia). rewrite bind_ret. unfold O_BAR. fold (pt p 0).
  rewrite i8_ret by lia. rewrite bind_ret. rewrite as_u8_id by lia. reflexivity.
Qed.
Lemma no_hit_ret m k p d : wf (checkers k) p -> ongoing (checkers k) p -> valid_dice d ->
  exists l, generate_legal_positions m (checkers k) p d = Ret l /\
  (forall q, In q l <-> exists r, legal_result d p r /\ mirrored r q) /\
  no_hit_rules m (tag k p) d = Ret (map (tag k) (filter (fun q => - pt q 0 <=? - pt p 0) l)).
Proof.
  intros W O V. destruct (movegen_correct m d W O V) as (l & E & _ & H).
  exists l. split; auto. split; auto. rewrite no_hit_rules_tag. unfold no_hit_positions. rewrite E, bind_ret.
  rewrite (@mfilter_ret _ _ (fun q => - pt q 0 <=? - pt p 0)); [reflexivity|].
  intros q I. apply H in I. destruct I as (r & L & M).
  pose proof (legal_result_wf W V L) as Wr. apply mirrored_iff in M; [|apply Wr]. subst q.
  rewrite (obar_ret m (flipP_wf Wr)), bind_ret, (obar_ret m W), bind_ret. reflexivity.
Qed.
