(** Game results, phases, races. *)
From Verif Require Export SpecGame VariantFacts PipFacts.
Open Scope Z_scope.

Lemma game_state_outcome m N p : wf N p -> not_both_won N p ->
  exists s, game_state m N p = Ret s /\ outcome N p s.
Proof.
  intros W NB. pose proof (wf_off_bounds W) as [B1 B2]. pose proof (wf_len W) as L.
  unfold game_state. rewrite debug_assert_ret.
  2:{ apply orb_true_iff. rewrite !Z.ltb_lt. exact NB. }
  rewrite bind_ret.
  destruct (Z.eqb_spec (x_off p) N) as [E|E].
  - destruct (Z.ltb_spec 0 (o_off p)).
    + eexists; split; [reflexivity|]. apply out_win1; auto.
    + destruct (existsb _ _) eqn:X.
      * eexists; split; [reflexivity|]. apply out_win3; try lia.
        apply (existsb_slice _ _ _ 0) in X; [|unfold O_BAR; lia].
        destruct X as (i & Hi & X). apply Z.ltb_lt in X. exists i. split; [lia|exact X].
      * eexists; split; [reflexivity|]. apply out_win2; try lia.
        intros (i & Hi & X'). rewrite (existsb_slice_false _ _ _ 0) in X by lia.
        specialize (X i ltac:(unfold O_BAR; lia)). apply Z.ltb_ge in X. unfold pt in X'. lia.
  - destruct (Z.eqb_spec (o_off p) N) as [E'|E'].
    + destruct (Z.ltb_spec 0 (x_off p)).
      * eexists; split; [reflexivity|]. apply out_lose1; auto; lia.
      * destruct (existsb _ _) eqn:X.
        -- eexists; split; [reflexivity|]. apply out_lose3; try lia.
           apply (existsb_slice _ _ _ 0) in X; [|unfold X_BAR; lia].
           destruct X as (i & Hi & X). apply Z.ltb_lt in X. exists i.
           unfold X_BAR in Hi. split; [lia|exact X].
        -- eexists; split; [reflexivity|]. apply out_lose2; try lia.
           intros (i & Hi & X'). rewrite (existsb_slice_false _ _ _ 0) in X by (unfold X_BAR; lia).
           specialize (X i ltac:(unfold X_BAR; lia)). apply Z.ltb_ge in X. unfold pt in X'. lia.
    + eexists; split; [reflexivity|]. apply out_ongoing; lia.
Qed.

Lemma outcome_fun N p s s' : 1 <= N -> outcome N p s -> outcome N p s' -> s = s'.
Proof.
  intros HN A B. destruct A; inversion B; subst; try lia; try reflexivity; try contradiction.
Qed.

Lemma outcome_flip N p s : wf N p -> not_both_won N p -> outcome N p s ->
  outcome N (flipP p) (reverse_state s).
Proof.
  intros W NB H. pose proof (wf_len W) as L. pose proof (wf_off_bounds W) as [B1 B2].
  pose proof (wf_N W). unfold not_both_won in NB.
  assert (C1 : o_caught p <-> x_caught (flipP p)).
  { split; intros (i & Hi & X); exists (25 - i)%nat; (split; [lia|]).
    - rewrite pt_flipP by (auto; lia). replace (25 - (25 - i))%nat with i by lia. lia.
    - rewrite pt_flipP in X by (auto; lia). lia. }
  assert (C2 : x_caught p <-> o_caught (flipP p)).
  { split; intros (i & Hi & X); exists (25 - i)%nat; (split; [lia|]).
    - rewrite pt_flipP by (auto; lia). replace (25 - (25 - i))%nat with i by lia. lia.
    - rewrite pt_flipP in X by (auto; lia). lia. }
  destruct H; simpl; constructor; simpl; try lia; tauto.
Qed.

Lemma game_state_default_eq m N p : wf N p -> not_both_won N p ->
  game_state_default m N p = game_state m N p.
Proof.
  intros W NB. pose proof (wf_len W) as L. pose proof (wf_off_bounds W) as [B1 B2].
  pose proof (wf_N W) as HN. unfold game_state_default, game_state.
  destruct (debug_assert m _) as [[]|]; [|reflexivity]. rewrite !bind_ret.
  assert (P : forall a b, (b <= 26)%nat -> mmap (fun i => pip p i) (range a b) = Ret (map (pt p) (range a b))).
  { intros a b Hb. apply mmap_ret. intros i Hi. apply in_range in Hi. unfold pip.
    rewrite (index_ret _ 0) by lia. reflexivity. }
  assert (OB : o_bar m p = Ret (- pt p 0)).
  { unfold o_bar, O_BAR. rewrite (index_ret _ 0) by lia. rewrite bind_ret. fold (pt p 0).
    pose proof (wf_pt_bounds 0 W). pose proof (wf_obar W).
    rewrite i8_ret by lia. rewrite bind_ret, as_u8_id by lia. reflexivity. }
  assert (XB : x_bar p = Ret (pt p 25)).
  { unfold x_bar, X_BAR. rewrite (index_ret _ 0) by lia. rewrite bind_ret. fold (pt p 25).
    pose proof (wf_pt_bounds 25 W). pose proof (wf_xbar W).
    rewrite as_u8_id by lia. reflexivity. }
  destruct (Z.eqb_spec (x_off p) N).
  - destruct (0 <? o_off p) eqn:?; auto. rewrite OB, bind_ret, P by lia. rewrite bind_ret.
    match goal with |- (if ?a then _ else _) = (if ?b then _ else _) => assert (H : a = b) end.
    { apply Bool.eq_iff_eq_true. rewrite orb_true_iff, Z.ltb_lt, existsb_exists.
      rewrite (existsb_slice _ _ _ 0) by (unfold O_BAR; lia). split.
      - intros [H|(x & Hx & H)].
        + exists 0%nat. unfold O_BAR. split; [lia|]. apply Z.ltb_lt. fold (pt p 0). lia.
        + apply in_map_iff in Hx. destruct Hx as (i & <- & Hi). apply in_range in Hi.
          exists i. unfold O_BAR. split; [lia|exact H].
      - intros (i & Hi & H). destruct i as [|i].
        + left. apply Z.ltb_lt in H. fold (pt p 0) in H. lia.
        + right. exists (pt p (S i)). split; [|exact H]. apply in_map, in_range. lia. }
    rewrite H. reflexivity.
  - destruct (o_off p =? N); auto. destruct (0 <? x_off p) eqn:?; auto.
    rewrite XB, bind_ret, P by lia. rewrite bind_ret.
    match goal with |- (if ?a then _ else _) = (if ?b then _ else _) => assert (H : a = b) end.
    { apply Bool.eq_iff_eq_true. rewrite orb_true_iff, Z.ltb_lt, existsb_exists.
      rewrite (existsb_slice _ _ _ 0) by (unfold X_BAR; lia). split.
      - intros [H|(x & Hx & H)].
        + exists 25%nat. unfold X_BAR. split; [lia|]. apply Z.ltb_lt. fold (pt p 25). lia.
        + apply in_map_iff in Hx. destruct Hx as (i & <- & Hi). apply in_range in Hi.
          exists i. unfold X_BAR. split; [lia|exact H].
      - intros (i & Hi & H). unfold X_BAR in Hi. destruct (Nat.eq_dec i 25) as [->|].
        + left. apply Z.ltb_lt in H. fold (pt p 25) in H. lia.
        + right. exists (pt p i). split; [|exact H]. apply in_map, in_range. lia. }
    rewrite H. reflexivity.
Qed.

(** Somebody who has not borne off everything has a checker on the board. *)
Lemma sumZ_pos_exists (f : Z -> Z) l : (forall v, 0 <= f v) -> 0 < sumZ (map f l) ->
  exists v, In v l /\ 0 < f v.
Proof.
  intros Hf. induction l as [|a l IH]; simpl; intros H; [lia|].
  destruct (Z.ltb_spec 0 (f a)); [exists a; auto|].
  destruct IH as (v & Hv & H1); [specialize (Hf a); lia|]. exists v; auto.
Qed.
Lemma exists_x N p : wf N p -> x_off p < N -> exists i, (i <= 25)%nat /\ 0 < pt p i.
Proof.
  intros W H. pose proof (wf_x W) as E. unfold x_checkers in E.
  destruct (sumZ_pos_exists (fun v => Z.max 0 v) (pips p)) as (v & Hv & Hp); [lia|lia|].
  apply (In_nth _ _ 0) in Hv. destruct Hv as (i & Hi & <-). exists i.
  rewrite (wf_len W) in Hi. unfold pt. split; lia.
Qed.
Lemma exists_o N p : wf N p -> o_off p < N -> exists i, (i <= 25)%nat /\ pt p i < 0.
Proof.
  intros W H. pose proof (wf_o W) as E. unfold o_checkers in E.
  destruct (sumZ_pos_exists (fun v => Z.max 0 (- v)) (pips p)) as (v & Hv & Hp); [lia|lia|].
  apply (In_nth _ _ 0) in Hv. destruct Hv as (i & Hi & <-). exists i.
  rewrite (wf_len W) in Hi. unfold pt. split; lia.
Qed.

Lemma phase_spec m N p : wf N p -> not_both_won N p ->
  exists ph, phase m N p = Ret ph /\
  match ph with
  | PGameOver r => outcome N p (GameOver r)
  | POngoing Race => ongoing N p /\ no_contact p
  | POngoing Contact => ongoing N p /\ ~ no_contact p
  end.
Proof.
  intros W NB. destruct (game_state_outcome m W NB) as (s & E & O). unfold phase.
  rewrite E, bind_ret. destruct s as [|r]; [|eauto].
  inversion O; subst. pose proof (wf_len W) as L.
  destruct (rposition_of _ (pips p)) as [a|] eqn:EA.
  2:{ destruct (exists_x W) as (i & Hi & Hp); auto.
      pose proof (rposition_None _ _ 0 EA (j:=i) ltac:(lia)) as X. apply Z.ltb_ge in X.
      unfold pt in Hp. lia. }
  destruct (position_of _ (pips p)) as [b|] eqn:EB.
  2:{ destruct (exists_o W) as (i & Hi & Hp); auto.
      pose proof (position_None _ _ 0 EB (j:=i) ltac:(lia)) as X. apply Z.ltb_ge in X.
      unfold pt in Hp. lia. }
  apply (rposition_Some _ _ 0) in EA. destruct EA as (A1 & A2 & A3).
  apply (position_Some _ _ 0) in EB. destruct EB as (B1 & B2 & B3).
  apply Z.ltb_lt in A2. apply Z.ltb_lt in B2. fold (pt p a) in A2. fold (pt p b) in B2.
  destruct (Nat.ltb_spec b a).
  - eexists; split; [reflexivity|]. simpl. split; [split; auto|].
    intros NC. specialize (NC a b ltac:(lia) ltac:(lia) A2 B2). lia.
  - eexists; split; [reflexivity|]. simpl. split; [split; auto|].
    intros i j Hi Hj Xi Oj.
    assert (i <= a)%nat.
    { destruct (Nat.le_gt_cases i a); auto. specialize (A3 i ltac:(lia)). apply Z.ltb_ge in A3.
      unfold pt in Xi. lia. }
    assert (b <= j)%nat.
    { destruct (Nat.le_gt_cases b j); auto. specialize (B3 j ltac:(lia)). apply Z.ltb_ge in B3.
      unfold pt in Oj. lia. }
    destruct (Nat.eq_dec i j); [subst; lia|lia].
Qed.

(** Contact cannot come back. *)
Lemma no_contact_flip p : length (pips p) = 26%nat -> no_contact p -> no_contact (flipP p).
Proof.
  intros L NC i j Hi Hj X O. rewrite pt_flipP in X, O by auto.
  specialize (NC (25 - j)%nat (25 - i)%nat ltac:(lia) ltac:(lia) ltac:(lia) ltac:(lia)). lia.
Qed.

Lemma no_contact_mv N p d a : wf N p -> valid_die d -> pre p d a -> no_contact p ->
  no_contact (mv p d a) /\ (forall i, pt (mv p d a) i < 0 <-> pt p i < 0) /\
  pt (mv p d a) 0 = pt p 0.
Proof.
  intros W [V1 V2] (Ha & Hp & Ht) NC. pose proof (wf_len W) as L.
  assert (NH : (d < a)%nat -> 0 <= pt p (a - d)).
  { intros H. destruct (Z.leb_spec 0 (pt p (a - d))); auto.
    specialize (NC a (a - d)%nat ltac:(lia) ltac:(lia) Hp ltac:(lia)). lia. }
  assert (A : forall i, pt (mv p d a) i = if (i =? a)%nat then pt p a - 1 else
     if ((d <? a) && (i =? a - d))%nat then pt p i + 1 else pt p i).
  { intros i. rewrite pt_mv by (auto; lia). destruct (Nat.eqb_spec i a); auto.
    destruct (Nat.ltb_spec d a) as [H|H]; simpl; auto. specialize (NH H).
    destruct (Nat.eqb_spec i (a - d)) as [->|]; simpl.
    - destruct (Z.eqb_spec (pt p (a - d)) (-1)); lia.
    - destruct (Z.eqb_spec (pt p (a - d)) (-1)); [lia|]. rewrite andb_false_r. auto. }
  assert (B : forall i, pt (mv p d a) i < 0 <-> pt p i < 0).
  { intros i. rewrite A. destruct (Nat.eqb_spec i a) as [->|]; [lia|].
    destruct (Nat.ltb_spec d a) as [H|H]; simpl; [|tauto]. specialize (NH H).
    destruct (Nat.eqb_spec i (a - d)) as [->|]; lia. }
  split; [|split; auto].
  - intros i j Hi Hj X O. apply B in O. rewrite A in X.
    destruct (Nat.eqb_spec i a) as [->|]; [apply NC; auto; lia|].
    destruct (Nat.ltb_spec d a) as [H|H]; simpl in X; [|apply NC; auto].
    destruct (Nat.eqb_spec i (a - d)) as [->|]; [|apply NC; auto].
    specialize (NC a j ltac:(lia) Hj Hp O). lia.
  - rewrite A. destruct (Nat.eqb_spec 0 a); [lia|].
    destruct (Nat.ltb_spec d a) as [H|H]; simpl; auto. destruct (Nat.eqb_spec 0 (a - d)); [lia|auto].
Qed.

Lemma no_contact_plays N ds : forall p r, wf N p -> Forall valid_die ds -> plays ds p r ->
  no_contact p -> no_contact r /\ (forall i, pt r i < 0 <-> pt p i < 0) /\ pt r 0 = pt p 0.
Proof.
  induction ds as [|d ds IH]; intros p r W F P NC; inversion P; subst.
  - repeat split; auto; tauto.
  - inversion F as [|? ? V F']; subst. pose proof (wf_len W) as L.
    match goal with X : may_move _ _ _ |- _ => rename X into M end.
    match goal with X : moved _ _ _ _ |- _ => rename X into Q end.
    pose proof (may_move_range M) as R.
    apply moved_iff in Q; auto; [|apply V]. subst.
    match goal with X : plays _ (mv _ _ _) _ |- _ => rename X into P' end.
    destruct (no_contact_mv W V (may_move_pre M) NC) as (A & B & C).
    destruct (IH _ _ (may_wf W V M) F' P' A) as (A' & B' & C').
    split; auto. split; [|congruence]. intros i. rewrite B', B. tauto.
Qed.

Lemma vlegal_inv k p d w : vlegal d (tag k p) w ->
  exists r q, w = tag k q /\ legal_result d p r /\ mirrored r q.
Proof.
  intros (k' & p' & q & r & E & -> & L & M). apply tag_inj in E. destruct E; subst. eauto.
Qed.

Lemma vlegal_wf k p d w : wf (checkers k) p -> valid_dice d -> vlegal d (tag k p) w ->
  exists r, w = tag k (flipP r) /\ legal_result d p r /\ wf (checkers k) r.
Proof.
  intros W V L. apply vlegal_inv in L. destruct L as (r & q & -> & L & M).
  pose proof (legal_result_wf W V L) as Wr. apply mirrored_iff in M; [|apply Wr]. subst. eauto.
Qed.

Lemma vlegal_vwf k v d w : vwf k v -> valid_dice d -> vlegal d v w -> vwf k w.
Proof.
  intros (p & -> & W) V L. destruct (vlegal_wf _ W V L) as (r & -> & _ & Wr).
  exists (flipP r). split; auto. apply flipP_wf; auto.
Qed.

Lemma played_vwf k n v w : vwf k v -> played n v w -> vwf k w.
Proof.
  intros W P. induction P; auto. apply IHP. eapply vlegal_vwf; eauto.
Qed.

(** After a play the player who moved is the only one who can have finished. *)
Lemma legal_not_both k p d w : wf (checkers k) p -> ongoing (checkers k) p -> valid_dice d ->
  vlegal d (tag k p) w -> x_off (board_of w) < checkers k.
Proof.
  intros W [_ O] V L. destruct (vlegal_wf _ W V L) as (r & -> & (ds & U & P & _) & Wr).
  pose proof (plays_pips W (uses_valid V U) P) as (_ & _ & _ & _ & B & _).
  rewrite board_of_tag. simpl. lia.
Qed.
