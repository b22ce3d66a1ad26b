(** Release-mode move generation in a race: what lies behind all checkers of the side to move does not
    influence which moves are listed, or in which order. *)
From Verif Require Export Rules EqFacts.
From Coq Require Import Lia.
Unset Implicit Arguments.
Open Scope Z_scope.

Definition rr {A B} (P : A -> B -> Prop) (a : res A) (b : res B) : Prop :=
  match a, b with Ret x, Ret y => P x y | Panic k, Panic k' => k = k' | _, _ => False end.
Lemma rr_bind {A B A' B'} (P : A -> B -> Prop) (Q : A' -> B' -> Prop) a b f g :
  rr P a b -> (forall x y, P x y -> rr Q (f x) (g y)) -> rr Q (bind a f) (bind b g).
Proof. destruct a, b; cbn; intros X K; try contradiction; [apply K, X|exact X]. Qed.
Lemma rr_same {A A' B'} (Q : A' -> B' -> Prop) (a : res A) f g :
  (forall x, rr Q (f x) (g x)) -> rr Q (bind a f) (bind a g).
Proof. destruct a; cbn; auto. Qed.
Lemma rr_mflat {A B C} (P : B -> C -> Prop) (f : A -> res (list B)) (g : A -> res (list C)) l :
  (forall x, rr (Forall2 P) (f x) (g x)) -> rr (Forall2 P) (mflat_map f l) (mflat_map g l).
Proof.
  intros H. induction l as [|a l IH]; cbn [mflat_map]; [constructor|].
  eapply rr_bind; [apply H|]. intros x y X. eapply rr_bind; [apply IH|]. intros x' y' X'. apply Forall2_app; auto.
Qed.
Lemma upd_app {A} (H T : list A) : forall i v, (i < length H)%nat -> upd (H ++ T) i v = upd H i v ++ T.
Proof.
  induction H as [|a H IH]; intros i v L; cbn in L; [lia|]. destruct i; cbn; [reflexivity|]. rewrite IH by lia. reflexivity.
Qed.
Lemma upd_len {A} (H : list A) : forall i v, length (upd H i v) = length H.
Proof. induction H as [|a H IH]; intros [|i] v; cbn; auto. Qed.
Lemma rpos_all_neg (T : list Z) : Forall (fun v => v <= 0) T -> rposition_of (fun v => 0 <? v) T = None.
Proof.
  induction 1 as [|a T Ha _ IH]; [reflexivity|]. cbn [rposition_of]. rewrite IH.
  destruct (0 <? a) eqn:E; [apply Z.ltb_lt in E; lia|reflexivity].
Qed.
Lemma rpos_app (H T : list Z) : Forall (fun v => v <= 0) T ->
  rposition_of (fun v => 0 <? v) (H ++ T) = rposition_of (fun v => 0 <? v) H.
Proof.
  intros F. induction H as [|a H IH]; [apply rpos_all_neg, F|]. cbn [app rposition_of]. rewrite IH. reflexivity.
Qed.
Lemma rpos_lt (H : list Z) : forall i, rposition_of (fun v => 0 <? v) H = Some i -> (i < length H)%nat.
Proof.
  induction H as [|a H IH]; intros i E; cbn in E; [discriminate|]. destruct (rposition_of _ H).
  - injection E as <-. cbn. specialize (IH _ eq_refl). lia.
  - destruct (0 <? a); [injection E as <-; cbn; lia|discriminate].
Qed.
Lemma filter_neg (T : list Z) : Forall (fun v => v <= 0) T -> filter (fun v => 0 <? v) T = [].
Proof.
  induction 1 as [|a T Ha _ IH]; [reflexivity|]. cbn. destruct (0 <? a) eqn:E; [apply Z.ltb_lt in E; lia|exact IH].
Qed.
Lemma filter_slice (H T : list Z) k : (1 <= length H)%nat -> Forall (fun v => v <= 0) T ->
  filter (fun v => 0 <? v) (slice (H ++ T) 1 k) = filter (fun v => 0 <? v) (slice H 1 k).
Proof.
  intros L F. unfold slice. destruct H as [|a H]; cbn in L; [lia|]. cbn [app skipn].
  rewrite firstn_app, filter_app, (filter_neg (firstn _ T)), app_nil_r; [reflexivity|].
  apply Forall_forall. intros x X. rewrite Forall_forall in F. apply F. rewrite <- (firstn_skipn (k - 1 - length H) T).
  apply in_or_app. left. exact X.
Qed.

Section Split.
Variables (h : nat) (T T' : list Z).
Hypothesis h1 : (1 <= h <= 25)%nat.
Hypothesis lT : length T = (26 - h)%nat.
Hypothesis lT' : length T' = (26 - h)%nat.
Hypothesis nT : Forall (fun v => v <= 0) T.
Hypothesis nT' : Forall (fun v => v <= 0) T'.
Hypothesis bT : nth (25 - h) T 0 = 0.
Hypothesis bT' : nth (25 - h) T' 0 = 0.

Definition sp (p q : position) : Prop :=
  exists H, length H = h /\ pips p = H ++ T /\ pips q = H ++ T'.
Notation R := Release.

Lemma idx_lo (H : list Z) (S : list Z) i : length H = h -> (i < h)%nat -> index (H ++ S) i = index H i.
Proof. intros L I. unfold index. rewrite nth_error_app1 by lia. reflexivity. Qed.
Lemma idx_lo_ret (H : list Z) i : length H = h -> (i < h)%nat -> exists v, index H i = Ret v.
Proof.
  intros L I. unfold index. destruct (nth_error H i) eqn:E; [eauto|]. apply nth_error_None in E. lia.
Qed.
Lemma idx_hi (H S : list Z) i : length H = h -> length S = (26 - h)%nat -> Forall (fun v => v <= 0) S -> (h <= i)%nat ->
  (i < 26)%nat -> exists v, index (H ++ S) i = Ret v /\ v <= 0.
Proof.
  intros L LS F I J. unfold index. rewrite nth_error_app2 by lia.
  destruct (nth_error S (i - length H)) eqn:E; [|apply nth_error_None in E; lia].
  eexists. split; [reflexivity|]. rewrite Forall_forall in F. apply F. eapply nth_error_In, E.
Qed.
Lemma idx_out (H S : list Z) i : length H = h -> length S = (26 - h)%nat -> (26 <= i)%nat -> index (H ++ S) i = Panic IndexOOB.
Proof.
  intros L LS I. unfold index. destruct (nth_error _ i) eqn:E; [|reflexivity].
  assert (nth_error (H ++ S) i <> None) by congruence. apply nth_error_Some in H0. rewrite app_length in H0. lia.
Qed.
Lemma idx_bar (H S : list Z) : length H = h -> length S = (26 - h)%nat -> nth (25 - h) S 0 = 0 -> index (H ++ S) 25 = Ret 0.
Proof.
  intros L LS B. unfold index. rewrite nth_error_app2 by lia. rewrite L.
  rewrite (nth_error_nth' S 0) by lia. rewrite B. reflexivity.
Qed.
Lemma asg_lo (H S : list Z) i v : length H = h -> (i < h)%nat -> assign (H ++ S) i v = Ret (upd H i v ++ S).
Proof.
  intros L I. unfold assign. rewrite app_length. destruct (Nat.ltb_spec i (length H + length S)); [|lia].
  rewrite upd_app by lia. reflexivity.
Qed.

Lemma sp_cmb p q f d : sp p q -> can_move_when_bearoff_is_legal R p f d = can_move_when_bearoff_is_legal R q f d.
Proof.
  intros (H & L & E & E'). unfold can_move_when_bearoff_is_legal. rewrite E, E'.
  destruct (le_lt_dec 26 f) as [F|F]; [rewrite !idx_out by (auto; congruence); reflexivity|].
  destruct (le_lt_dec h f) as [G|G].
  - destruct (idx_hi H T f) as (v & -> & Hv); auto. destruct (idx_hi H T' f) as (v' & -> & Hv'); auto. cbn [bind].
    destruct (Z.ltb_spec v 1); [|lia]. destruct (Z.ltb_spec v' 1); [|lia]. reflexivity.
  - rewrite !idx_lo by auto. destruct (idx_lo_ret H f L G) as (v & ->). cbn [bind].
    destruct (v <? 1); [reflexivity|]. destruct (Nat.ltb_spec d f); [|reflexivity].
    unfold usub. destruct (Nat.leb_spec d f); [|reflexivity]. cbn [bind]. rewrite !idx_lo by (auto; lia). reflexivity.
Qed.
Lemma sp_cmb_lo p q f d : sp p q -> can_move_when_bearoff_is_legal R p f d = Ret true -> (f < h)%nat.
Proof.
  intros (H & L & E & E') C. unfold can_move_when_bearoff_is_legal in C. rewrite E in C.
  destruct (le_lt_dec h f) as [G|G]; [exfalso|exact G].
  destruct (le_lt_dec 26 f) as [F|F]; [rewrite idx_out in C by auto; discriminate|].
  destruct (idx_hi H T f) as (v & Ev & Hv); auto. rewrite Ev in C. cbn [bind] in C.
  destruct (Z.ltb_spec v 1); [discriminate|lia].
Qed.
Lemma sp_move p q f d : sp p q -> (f < h)%nat -> rr sp (move_single_checker R p f d) (move_single_checker R q f d).
Proof.
  intros (H & L & E & E') F. unfold move_single_checker. rewrite E, E'. rewrite !idx_lo by auto.
  apply rr_same. intros v. apply rr_same. intros v1. rewrite !asg_lo by auto. cbn [bind].
  pose proof (upd_len H f v1) as L1. rewrite L in L1. set (H1 := upd H f v1) in *.
  destruct (Nat.ltb_spec d f).
  - unfold usub. destruct (Nat.leb_spec d f); [|lia]. cbn [bind]. rewrite !idx_lo by (auto; lia). apply rr_same. intros w.
    destruct (w =? -1).
    + rewrite !asg_lo by (auto; lia). cbn [bind]. assert (L2 : length (upd H1 (f - d) 1) = h) by (rewrite upd_len; exact L1).
      unfold O_BAR. rewrite !idx_lo by (auto; lia). apply rr_same; intros b. apply rr_same; intros b1.
      rewrite !asg_lo by (auto; lia). cbn. eexists; split; [|split; reflexivity]. rewrite !upd_len. exact L1.
    + apply rr_same; intros w1. rewrite !asg_lo by (auto; lia). cbn. eexists; split; [|split; reflexivity]. rewrite upd_len. exact L1.
  - unfold u8. destruct (in_u8 (x_off p + 1)), (in_u8 (x_off q + 1)); cbn; eexists; (split; [|split; reflexivity]); exact L1.
Qed.
Lemma sp_spc p q d : sp p q -> smallest_pip_to_check p d = smallest_pip_to_check q d.
Proof. intros (H & L & E & E'). unfold smallest_pip_to_check. rewrite E, E', !rpos_app by auto. reflexivity. Qed.
Lemma sp_step {A B} (Q : A -> B -> Prop) p q f d k k' z z' : sp p q -> rr Q z z' ->
  (forall p1 q1, (f < h)%nat -> sp p1 q1 -> rr Q (k p1) (k' q1)) ->
  rr Q (c <- can_move_when_bearoff_is_legal R p f d ;; if c then (u <- clone_and_move_single_checker R p f d ;; k u) else z)
       (c <- can_move_when_bearoff_is_legal R q f d ;; if c then (u <- clone_and_move_single_checker R q f d ;; k' u) else z').
Proof.
  intros S Z K. rewrite <- (sp_cmb p q f d S). destruct (can_move_when_bearoff_is_legal R p f d) as [[|]|] eqn:C; cbn [bind]; [|exact Z|reflexivity].
  pose proof (sp_cmb_lo _ _ _ _ S C) as F. eapply rr_bind; [apply sp_move; auto|]. intros x y X. apply K; auto.
Qed.
Lemma sp_try_push p q d i : sp p q -> rr (Forall2 sp) (try_push R p d i) (try_push R q d i).
Proof. intros S. unfold try_push. apply sp_step; auto; [constructor|]. intros. cbn. auto. Qed.
Lemma sp_bar p q : sp p q -> index (pips p) X_BAR = Ret 0 /\ index (pips q) X_BAR = Ret 0.
Proof. intros (H & L & -> & ->). unfold X_BAR. split; apply idx_bar; auto. Qed.
Lemma sp_one p q d : sp p q -> rr (Forall2 sp) (one_checker_moves R p d) (one_checker_moves R q d).
Proof.
  intros S. unfold one_checker_moves. destruct (sp_bar _ _ S) as (-> & ->). cbn [bind debug_assert]. rewrite (sp_spc p q d S).
  apply rr_mflat. intros. apply sp_try_push, S.
Qed.
Lemma sp_two p q big small : (small < big)%nat -> sp p q -> rr (Forall2 sp) (two_checker_moves R p big small) (two_checker_moves R q big small).
Proof.
  intros SB S. unfold two_checker_moves. destruct (sp_bar _ _ S) as (-> & ->). cbn [bind debug_assert]. rewrite !(sp_spc p q _ S).
  eapply (rr_bind (Forall2 sp)).
  { apply rr_mflat. intros i. apply sp_step; auto; [constructor|]. intros p1 q1 _ S1. rewrite (sp_spc p1 q1 _ S1).
    apply rr_mflat. intros. apply sp_try_push, S1. }
  intros l1 l1' F1. eapply (rr_bind (Forall2 sp)).
  { apply rr_mflat. intros i. apply sp_step; auto; [constructor|]. intros p1 q1 I S1. rewrite (sp_spc p1 q1 _ S1).
    assert (X : forall Q : list position -> list position -> Prop, forall f f', (forall b, rr Q (f b) (f' b)) ->
      rr Q (bind (if (big <=? i)%nat then t1 <- usub R i big ;; w1 <- index (pips p) t1 ;;
                  if w1 <? 0 then Ret true else t2 <- usub R i small ;; w2 <- index (pips p) t2 ;; Ret (w2 <? 0) else Ret false) f)
           (bind (if (big <=? i)%nat then t1 <- usub R i big ;; w1 <- index (pips q) t1 ;;
                  if w1 <? 0 then Ret true else t2 <- usub R i small ;; w2 <- index (pips q) t2 ;; Ret (w2 <? 0) else Ret false) f')).
    { intros Q f f' K. destruct S as (H & L & -> & ->). destruct (Nat.leb_spec big i); [|apply rr_same, K].
      unfold usub. destruct (Nat.leb_spec big i); [|lia]. destruct (Nat.leb_spec small i); [|lia]. cbn [bind].
      rewrite !idx_lo by (auto; lia). apply rr_same, K. }
    apply X. intros b. apply rr_mflat. intros. apply sp_try_push, S1. }
  intros l2 l2' F2. cbn. apply Forall2_app; auto.
Qed.
Lemma sp_mixed p q big small : (small < big)%nat -> sp p q ->
  rr (Forall2 sp) (all_positions_after_mixed_move R p big small) (all_positions_after_mixed_move R q big small).
Proof.
  intros SB S. unfold all_positions_after_mixed_move. destruct (sp_bar _ _ S) as (B & B'). rewrite B, B'. cbn [bind debug_assert Z.eqb].
  unfold moves_with_0_checkers_on_bar. rewrite B, B'. cbn [bind debug_assert].
  eapply rr_bind; [apply sp_two; auto|]. intros l l' [|? ? ? ? Y Ys]; [|cbn; constructor; auto].
  eapply rr_bind; [apply sp_one; auto|]. intros ? ? [|? ? ? ? Y Ys]; [|cbn; constructor; auto].
  eapply rr_bind; [apply sp_one; auto|]. intros ? ? [|? ? ? ? Y Ys]; [|cbn; constructor; auto].
  cbn. auto.
Qed.
Lemma sp_loop d mx : forall n c p q, sp p q ->
  rr (fun x y => fst x = fst y /\ sp (snd x) (snd y)) (movable_loop R d mx n c p) (movable_loop R d mx n c q).
Proof.
  induction n as [|n IH]; intros c p q S; cbn [movable_loop]; [cbn; auto|].
  destruct ((c <? mx) && (d <? Datatypes.S n)%nat) eqn:G; [|cbn; auto]. apply andb_prop in G as [_ G]. apply Nat.ltb_lt in G.
  rewrite <- (sp_cmb p q _ _ S). destruct (can_move_when_bearoff_is_legal R p (Datatypes.S n) d) as [[|]|] eqn:C; cbn [bind]; [|apply IH, S|reflexivity].
  pose proof (sp_cmb_lo _ _ _ _ S C) as F. destruct S as (H & L & E & E'). rewrite E, E'. rewrite !idx_lo by auto.
  apply rr_same. intros num. rewrite !asg_lo by auto. cbn [bind]. unfold usub. destruct (Nat.leb_spec d (Datatypes.S n)); [|lia].
  pose proof (upd_len H (Datatypes.S n) 0) as L1. rewrite L in L1. set (H1 := upd H (Datatypes.S n) 0) in *.
  cbn [bind]. rewrite !idx_lo by (auto; lia). apply rr_same. intros w.
  destruct (w =? -1).
  - rewrite !asg_lo by (auto; lia). cbn [bind]. apply IH. eexists; split; [|split; reflexivity]. rewrite upd_len. exact L1.
  - eapply (rr_bind (fun a b => exists H2, length H2 = h /\ a = H2 ++ T /\ b = H2 ++ T')).
    + apply rr_same. intros w1. rewrite !asg_lo by (auto; lia). cbn. eexists; split; [|split; reflexivity]. rewrite upd_len. exact L1.
    + intros a b (H2 & L2 & -> & ->). apply IH. exists H2. auto.
Qed.
Lemma sp_nmc p q d e : sp p q -> rr eq (number_of_movable_checkers R p d e) (number_of_movable_checkers R q d e).
Proof.
  intros S. unfold number_of_movable_checkers. apply rr_same. intros mx.
  eapply rr_bind; [apply sp_loop, S|]. intros (c & p1) (c' & q1). cbn [fst snd]. intros (<- & (H & L & E & E')).
  destruct (mx <=? c); [reflexivity|]. rewrite E, E', !rpos_app by auto.
  destruct (rposition_of _ H) as [b|] eqn:B; [|reflexivity]. apply rpos_lt in B. rewrite !filter_slice by (auto; lia).
  destruct (6 <? b)%nat; [reflexivity|]. destruct (Nat.ltb_spec d b).
  - rewrite !idx_lo by (auto; lia). destruct (idx_lo_ret H d L) as (v & ->); [lia|]. reflexivity.
  - destruct (sum_i8 R _); reflexivity.
Qed.
Lemma sp_after p q d e : sp p q -> rr (Forall2 sp) (double_moves_after_entering R p d e) (double_moves_after_entering R q d e).
Proof.
  intros S. unfold double_moves_after_entering. eapply rr_bind; [apply sp_nmc, S|]. intros nr ? <-.
  destruct (nr =? 0); [cbn; auto|]. rewrite (sp_spc p q _ S).
  apply rr_mflat; intros i1. apply sp_step; auto; [constructor|]. intros p1 q1 _ S1.
  destruct (nr =? 1); [cbn; auto|]. rewrite (sp_spc p1 q1 _ S1).
  apply rr_mflat; intros i2. apply sp_step; auto; [constructor|]. intros p2 q2 _ S2.
  destruct (nr =? 2); [cbn; auto|]. rewrite (sp_spc p2 q2 _ S2).
  apply rr_mflat; intros i3. apply sp_step; auto; [constructor|]. intros p3 q3 _ S3.
  destruct (nr =? 3); [cbn; auto|]. rewrite (sp_spc p3 q3 _ S3).
  apply rr_mflat; intros i4. apply sp_step; auto; [constructor|]. intros p4 q4 _ S4. cbn. auto.
Qed.
Lemma sp_double p q d : (1 <= d <= 6)%nat -> sp p q ->
  rr (Forall2 sp) (all_positions_after_double_move R p d) (all_positions_after_double_move R q d).
Proof.
  intros D S. unfold all_positions_after_double_move. destruct (sp_bar _ _ S) as (B & B').
  unfold position_after_entering_checkers. rewrite B, B'. cbn [bind]. unfold usub, X_BAR. destruct (Nat.leb_spec d 25); [|lia]. cbn [bind].
  assert (Y : forall S0 : list Z, length S0 = (26 - h)%nat -> forall H, length H = h -> exists w, index (H ++ S0) (25 - d) = Ret w).
  { intros S0 LS HH L. unfold index. destruct (nth_error _ _) eqn:E; [eauto|]. apply nth_error_None in E. rewrite app_length in E. lia. }
  pose proof S as (HH & L & E & E'). rewrite E, E'. destruct (Y T lT HH L) as (w & ->). destruct (Y T' lT' HH L) as (w' & ->).
  cbn [bind Z.ltb Z.compare andb Z.eqb]. eapply rr_bind; [apply sp_after, S|]. intros x y XY. cbn [bind debug_assert]. exact XY.
Qed.
End Split.
