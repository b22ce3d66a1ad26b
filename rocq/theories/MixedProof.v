(** The generator for two different dice is exactly the rules. *)
From Verif Require Export Commute MixedMoves.
From Coq Require Import Permutation.
Open Scope Z_scope.

(** ** Plays with explicit sources *)

Lemma plays_nil_inv p r : plays [] p r <-> r = p.
Proof. split; [intros H; inversion H; auto|intros ->; constructor]. Qed.

Lemma plays_cons_iff N p d ds r : wf N p -> valid_die d ->
  plays (d :: ds) p r <-> exists a, may_move p d a /\ plays ds (mv p d a) r.
Proof.
  intros W V. split.
  - intros H. inversion H as [|d' ds' p' from q r' M Mv P]; subst. exists from. split; auto.
    apply moved_iff in Mv; [subst; auto|apply W|eapply may_move_range; eauto|apply V].
  - intros (a & M & P). econstructor; eauto. apply moved_iff; auto; [apply W| |apply V].
    eapply may_move_range; eauto.
Qed.

Lemma may_wf N p d a : wf N p -> valid_die d -> may_move p d a -> wf N (mv p d a).
Proof. intros. apply mv_wf; auto using may_move_pre. Qed.

Lemma plays_one N p d r : wf N p -> valid_die d ->
  plays [d] p r <-> exists a, may_move p d a /\ r = mv p d a.
Proof.
  intros W V. rewrite plays_cons_iff by eauto.
  split; intros (a & M & H); exists a; split; auto; apply plays_nil_inv; auto.
Qed.

Lemma plays_two N p d1 d2 r : wf N p -> valid_die d1 -> valid_die d2 ->
  plays [d1; d2] p r <->
  exists a b, may_move p d1 a /\ may_move (mv p d1 a) d2 b /\ r = mv (mv p d1 a) d2 b.
Proof.
  intros W V1 V2. rewrite plays_cons_iff by eauto. split.
  - intros (a & M & H). rewrite plays_one in H by eauto using may_wf.
    destruct H as (b & M' & ->). eauto.
  - intros (a & b & M & M' & ->). exists a. split; auto.
    rewrite plays_one by eauto using may_wf. eauto.
Qed.

Lemma plays_wf N ds p r : Forall valid_die ds -> wf N p -> plays ds p r -> wf N r.
Proof.
  intros F W P. revert F W. induction P as [|d ds p from q r M Mv P IH]; intros F W; auto.
  inversion F; subst. apply IH; auto.
  apply moved_iff in Mv; [subst; apply may_wf; auto|apply W|eapply may_move_range; eauto|].
  match goal with H : valid_die d |- _ => apply H end.
Qed.

(** ** Which dice sequences a mixed roll offers *)

Lemma uses_mixed big small ds : big <> small ->
  uses (Mixed big small) ds <->
  ds = [] \/ ds = [big] \/ ds = [small] \/ ds = [big; small] \/ ds = [small; big].
Proof.
  intros Hn. unfold uses, pool. split.
  - intros (rest & P). pose proof (Permutation_length P) as L. rewrite app_length in L. simpl in L.
    assert (forall a b : nat, Permutation [a; b] [big; small] ->
            (a = big /\ b = small) \/ (a = small /\ b = big)) as H2.
    { intros a b Q. apply Permutation_sym in Q. apply Permutation_length_2_inv in Q. 
      destruct Q as [Q|Q]; inversion Q; auto. }
    destruct ds as [|a [|b [|c ds]]]; simpl in *; auto.
    + destruct rest as [|b [|c rest]]; simpl in *; try lia.
      destruct (H2 a b P) as [[-> _]|[-> _]]; auto.
    + destruct rest; simpl in *; [|lia].
      destruct (H2 a b P) as [[-> ->]|[-> ->]]; auto.
    + lia.
  - intros [->|[->|[->|[->| ->]]]].
    + exists [big; small]. auto.
    + exists [small]. auto.
    + exists [big]. apply perm_swap.
    + exists []. auto.
    + exists []. apply perm_swap.
Qed.

Definition two (big small : nat) p r := plays [big; small] p r \/ plays [small; big] p r.

Lemma legal_mixed big small p r : (small < big)%nat ->
  legal_result (Mixed big small) p r <->
  two big small p r \/
  ((forall r', ~ two big small p r') /\ plays [big] p r) \/
  ((forall r', ~ two big small p r') /\ (forall r', ~ plays [big] p r') /\ plays [small] p r) \/
  ((forall r', ~ two big small p r') /\ (forall r', ~ plays [big] p r') /\
   (forall r', ~ plays [small] p r') /\ r = p).
Proof.
  intros Hn. assert (Hne : big <> small) by lia. unfold legal_result, legal_play.
  pose proof (fun ds => uses_mixed ds Hne) as U. split.
  - intros (ds & U1 & P & Mx & Lg).
    assert (T : (length ds < 2)%nat -> forall r', ~ two big small p r').
    { intros L r' [H|H].
      - specialize (Mx [big; small] r'). rewrite U in Mx. simpl in Mx. lia || (assert (2 <= length ds)%nat by (apply Mx; tauto); lia).
      - assert (2 <= length ds)%nat; [|lia]. apply (Mx [small; big] r'); auto. apply U. tauto. }
    apply U in U1. destruct U1 as [->|[->|[->|[->| ->]]]].
    + right; right; right. apply plays_nil_inv in P. repeat split; auto.
      * intros r' H. assert (1 <= 0)%nat; [|lia]. apply (Mx [big] r'); auto. apply U; tauto.
      * intros r' H. assert (1 <= 0)%nat; [|lia]. apply (Mx [small] r'); auto. apply U; tauto.
    + right; left. split; auto.
    + right; right; left. split; auto. split; auto. intros r' H.
      assert (big <= small)%nat; [|lia]. apply (Lg small eq_refl big r'); auto. apply U; tauto.
    + left. left. auto.
    + left. right. auto.
  - assert (Len : forall ds, uses (Mixed big small) ds -> (length ds <= 2)%nat).
    { intros ds Hu. apply U in Hu. destruct Hu as [->|[->|[->|[->| ->]]]]; simpl; lia. }
    intros [[P|P]|[[T P]|[[T [B P]]|[T [B [S ->]]]]]].
    + exists [big; small]. split; [apply U; tauto|]. split; auto. split.
      * intros ds' r' Hu _. simpl. auto.
      * intros a E. discriminate.
    + exists [small; big]. split; [apply U; tauto|]. split; auto. split.
      * intros ds' r' Hu _. simpl. auto.
      * intros a E. discriminate.
    + exists [big]. split; [apply U; tauto|]. split; auto. split.
      * intros ds' r' Hu Hp. apply U in Hu.
        destruct Hu as [->|[->|[->|[->| ->]]]]; simpl; try lia; exfalso; eapply T; [left|right]; eauto.
      * intros a E b r' Hu _. inversion E; subst. apply U in Hu.
        destruct Hu as [E'|[E'|[E'|[E'|E']]]]; inversion E'; lia.
    + exists [small]. split; [apply U; tauto|]. split; auto. split.
      * intros ds' r' Hu Hp. apply U in Hu.
        destruct Hu as [->|[->|[->|[->| ->]]]]; simpl; try lia; exfalso; eapply T; [left|right]; eauto.
      * intros a E b r' Hu Hp. inversion E; subst. apply U in Hu.
        destruct Hu as [E'|[E'|[E'|[E'|E']]]]; inversion E'; subst; try lia.
        exfalso; eapply B; eauto.
    + exists []. split; [apply U; tauto|]. split; [constructor|]. split.
      * intros ds' r' Hu Hp. apply U in Hu.
        destruct Hu as [->|[->|[->|[->| ->]]]]; simpl; try lia; exfalso;
        first [eapply B; eauto; fail|eapply S; eauto; fail|eapply T; left; eauto; fail|eapply T; right; eauto].
      * intros a E. discriminate.
Qed.

(** ** Loop bodies *)

Definition tp (p : position) (die i : nat) : list position :=
  if cm p die i then [mv p die i] else [].

Lemma try_push_ret m N p die i : wf N p -> valid_die die -> (1 <= i <= 25)%nat ->
  try_push m p die i = Ret (tp p die i).
Proof.
  intros W V Hi. unfold try_push, tp. rewrite cm_ret by (auto; try apply W; lia).
  rewrite bind_ret. destruct (cm p die i) eqn:E; auto.
  unfold clone_and_move_single_checker. rewrite (move_single_checker_ret m W V); auto.
  apply cm_pre; auto.
Qed.

Lemma loop_ret m N p die rng : wf N p -> valid_die die ->
  (forall i, In i rng -> (1 <= i <= 25)%nat) ->
  mflat_map (try_push m p die) rng = Ret (flat_map (tp p die) rng).
Proof. intros W V H. apply mflat_map_ret. intros i Hi. eapply try_push_ret; eauto. Qed.

Lemma in_tp p die rng r :
  In r (flat_map (tp p die) rng) <-> exists i, In i rng /\ cm p die i = true /\ r = mv p die i.
Proof.
  rewrite in_flat_map. unfold tp. split.
  - intros (i & Hi & H). exists i. split; auto. destruct (cm p die i); simpl in H; intuition.
  - intros (i & Hi & E & ->). exists i. rewrite E. simpl. auto.
Qed.

(** ** Entering from the bar is a move from point 25 *)

Lemma enter_ret m N p die : wf N p -> valid_die die -> may_move p die 25 ->
  enter_single_checker m p die = Ret (mv p die 25).
Proof.
  intros W V M. pose proof (move_single_checker_ret m W V (may_move_pre M)) as E.
  unfold enter_single_checker, move_single_checker, X_BAR in *.
  destruct V as [V1 V2]. destruct M as (_ & P & _ & T & _). pose proof (wf_len W) as Hl.
  specialize (T ltac:(lia)).
  rewrite !(index_ret (pips p) 0) in * by lia. fold (pt p 25) in *. rewrite bind_ret in *.
  rewrite debug_assert_ret by (apply Z.ltb_lt; auto). rewrite bind_ret.
  rewrite usub_ret in * by lia. rewrite bind_ret. rewrite (index_ret (pips p) 0) by lia.
  rewrite bind_ret. fold (pt p (25 - die)).
  rewrite debug_assert_ret by (apply Z.ltb_lt; auto). rewrite bind_ret.
  destruct (i8 m (pt p 25 - 1)); [|discriminate]. rewrite bind_ret in *.
  destruct (assign (pips p) 25 a); [|discriminate]. rewrite bind_ret in *.
  destruct (Nat.ltb_spec die 25); [|lia]. rewrite bind_ret in E. exact E.
Qed.

Lemma can_enter_ret m p die : length (pips p) = 26%nat -> valid_die die -> 0 < pt p 25 ->
  can_enter m p die = Ret (-2 <? pt p (25 - die)).
Proof.
  intros Hl [V1 V2] P. unfold can_enter, X_BAR.
  rewrite (index_ret _ 0) by lia. rewrite bind_ret. fold (pt p 25).
  rewrite debug_assert_ret by (apply Z.ltb_lt; auto). rewrite bind_ret.
  rewrite usub_ret by lia. rewrite bind_ret. rewrite (index_ret _ 0) by lia. reflexivity.
Qed.

Lemma may_enter p die : valid_die die -> 0 < pt p 25 ->
  may_move p die 25 <-> -2 < pt p (25 - die).
Proof. intros [V1 V2] P. unfold may_move. split; [intros H; apply H; lia|]. intuition lia. Qed.

Lemma may_bar p die a : 0 < pt p 25 -> may_move p die a -> a = 25%nat.
Proof. intros P M. destruct (Nat.eq_dec a 25); auto. destruct M as (_ & _ & H & _). specialize (H n). lia. Qed.

Lemma may_nobar p die a : may_move p die a -> pt p 25 <= 0 -> (1 <= a <= 24)%nat.
Proof. intros M P. destruct M as (H & H' & _). destruct (Nat.eq_dec a 25); [subst; lia|lia]. Qed.

(** ** No checker on the bar *)

Lemma sp_may N p die i : wf N p -> pt p 25 = 0 -> valid_die die -> (i <= 24)%nat ->
  (smallest_pip_to_check p die <= i)%nat -> cm p die i = true -> may_move p die i.
Proof. intros W B V Hi H1 H2. apply (smallest_pip_spec W); auto. Qed.

Section NoBar.
Variables (N : Z) (p : position) (big small : nat).
Hypotheses (W : wf N p) (Vb : valid_die big) (Vs : valid_die small) (Hbs : (small < big)%nat)
           (Bar : pt p 25 = 0).

Let Hl : length (pips p) = 26%nat := wf_len W.

Lemma bar_after d a : valid_die d -> may_move p d a -> pt (mv p d a) 25 = 0.
Proof.
  intros V M. pose proof (may_nobar M ltac:(lia)). destruct V.
  rewrite pt_mv_high; auto; lia.
Qed.

Definition small_first : list position :=
  flat_map (fun i =>
    if cm p small i then
      flat_map (tp (mv p small i) big) (rev (range (smallest_pip_to_check (mv p small i) big) (i + 1)))
    else []) (rev (range (smallest_pip_to_check p small) 25)).

Definition outcomes (i : nat) : bool :=
  (big <=? i)%nat && ((pt p (i - big) <? 0) || (pt p (i - small) <? 0)).

Definition big_rng (i : nat) : list nat :=
  let sp := smallest_pip_to_check (mv p big i) small in
  if outcomes i then range sp i ++ range 0 0
  else range sp (i - big) ++ range (Nat.max sp (i - big + 1)) i.

Definition big_first : list position :=
  flat_map (fun i =>
    if cm p big i then flat_map (tp (mv p big i) small) (big_rng i) else [])
    (range (smallest_pip_to_check p big) 25).

Lemma sp_pos q d i : wf N q -> valid_die d -> (smallest_pip_to_check q d <= i)%nat -> (1 <= i)%nat.
Proof. intros Wq V. pose proof (smallest_pip_pos Wq V). lia. Qed.

Lemma two_checker_ret m : two_checker_moves m p big small = Ret (small_first ++ big_first).
Proof.
  unfold two_checker_moves. rewrite (index_ret _ 0) by (rewrite Hl; unfold X_BAR; lia).
  rewrite bind_ret. unfold X_BAR at 1. fold (pt p 25).
  rewrite debug_assert_ret by (apply Z.eqb_eq; auto). rewrite bind_ret.
  rewrite (mflat_map_ret _ (fun i =>
    if cm p small i then
      flat_map (tp (mv p small i) big) (rev (range (smallest_pip_to_check (mv p small i) big) (i + 1)))
    else [])).
  2:{ intros i Hi. rewrite <- in_rev, in_range in Hi. unfold X_BAR in Hi.
      destruct Hi as [Hi1 Hi2]. pose proof (sp_pos W Vs Hi1).
      rewrite cm_ret by (auto; lia). rewrite bind_ret.
      destruct (cm p small i) eqn:E; auto. apply cm_pre in E; [|lia].
      unfold clone_and_move_single_checker. rewrite (move_single_checker_ret m W Vs E), bind_ret.
      pose proof (mv_wf W Vs E) as W'.
      eapply loop_ret; eauto. intros j Hj. rewrite <- in_rev, in_range in Hj.
      pose proof (sp_pos W' Vb (proj1 Hj)). lia. }
  rewrite bind_ret. fold small_first.
  rewrite (mflat_map_ret _ (fun i =>
    if cm p big i then flat_map (tp (mv p big i) small) (big_rng i) else [])).
  2:{ intros i Hi. rewrite in_range in Hi. unfold X_BAR in Hi.
      destruct Hi as [Hi1 Hi2]. pose proof (sp_pos W Vb Hi1).
      rewrite cm_ret by (auto; lia). rewrite bind_ret.
      destruct (cm p big i) eqn:E; auto. apply cm_pre in E; [|lia].
      unfold clone_and_move_single_checker. rewrite (move_single_checker_ret m W Vb E), bind_ret.
      pose proof (mv_wf W Vb E) as W'.
      assert (O : (if (big <=? i)%nat then
                 t1 <- usub m i big ;;
                 w1 <- index (pips p) t1 ;;
                 if w1 <? 0 then Ret true
                 else t2 <- usub m i small ;;
                      w2 <- index (pips p) t2 ;;
                      Ret (w2 <? 0)
               else Ret false) = Ret (outcomes i)).
      { unfold outcomes. destruct (Nat.leb_spec big i); auto.
        rewrite usub_ret by lia. rewrite bind_ret, (index_ret _ 0) by lia. rewrite bind_ret.
        fold (pt p (i - big)). destruct (pt p (i - big) <? 0); auto.
        rewrite usub_ret by lia. rewrite bind_ret, (index_ret _ 0) by lia. reflexivity. }
      rewrite O, bind_ret. fold (big_rng i).
      eapply loop_ret; eauto. intros j Hj. unfold big_rng in Hj.
      destruct (outcomes i); apply in_app_or in Hj; destruct Hj as [Hj|Hj]; apply in_range in Hj;
      try lia; pose proof (fun H => sp_pos (i:=j) W' Vs H) as Q; lia. }
  reflexivity.
Qed.

(** What the two loops contain. *)
Lemma in_small_first r : In r small_first <->
  exists a b, may_move p small a /\ may_move (mv p small a) big b /\ (b <= a)%nat /\
              r = mv (mv p small a) big b.
Proof.
  unfold small_first. rewrite in_flat_map. split.
  - intros (a & Ha & H). rewrite <- in_rev, in_range in Ha.
    destruct (cm p small a) eqn:E; [|destruct H].
    assert (M : may_move p small a) by (eapply sp_may; eauto; lia).
    apply in_tp in H. destruct H as (b & Hb & Eb & ->). rewrite <- in_rev, in_range in Hb.
    assert (M2 : may_move (mv p small a) big b)
      by (eapply sp_may; eauto using bar_after, may_wf; lia).
    exists a, b. split; auto. split; auto. split; [lia|auto].
  - intros (a & b & M1 & M2 & L & ->). pose proof (may_nobar M1 ltac:(lia)).
    pose proof (proj1 (@smallest_pip_spec N p small a W Bar Vs ltac:(lia)) M1) as [A1 A2].
    exists a. split; [rewrite <- in_rev, in_range; lia|]. rewrite A2. apply in_tp.
    pose proof (may_wf W Vs M1) as W'. pose proof (bar_after Vs M1) as B'.
    pose proof (may_nobar M2 ltac:(lia)).
    pose proof (proj1 (@smallest_pip_spec N _ big b W' B' Vb ltac:(lia)) M2) as [A3 A4].
    exists b. split; auto. rewrite <- in_rev, in_range. lia.
Qed.

Lemma in_big_rng a b : In b (big_rng a) <->
  (smallest_pip_to_check (mv p big a) small <= b < a)%nat /\
  (outcomes a = true \/ b <> (a - big)%nat).
Proof.
  unfold big_rng. destruct (outcomes a); rewrite in_app_iff, !in_range; intuition lia.
Qed.

Lemma in_big_first r : In r big_first <->
  exists a b, may_move p big a /\ may_move (mv p big a) small b /\ (b < a)%nat /\
              (outcomes a = true \/ b <> (a - big)%nat) /\ r = mv (mv p big a) small b.
Proof.
  unfold big_first. rewrite in_flat_map. split.
  - intros (a & Ha & H). rewrite in_range in Ha.
    destruct (cm p big a) eqn:E; [|destruct H].
    assert (M : may_move p big a) by (eapply sp_may; eauto; lia).
    apply in_tp in H. destruct H as (b & Hb & Eb & ->). rewrite in_big_rng in Hb.
    assert (M2 : may_move (mv p big a) small b)
      by (eapply sp_may; eauto using bar_after, may_wf; lia).
    exists a, b. split; auto. split; auto. split; [lia|]. split; auto. tauto.
  - intros (a & b & M1 & M2 & L & O & ->). pose proof (may_nobar M1 ltac:(lia)).
    pose proof (proj1 (@smallest_pip_spec N p big a W Bar Vb ltac:(lia)) M1) as [A1 A2].
    exists a. split; [rewrite in_range; lia|]. rewrite A2. apply in_tp.
    pose proof (may_wf W Vb M1) as W'. pose proof (bar_after Vb M1) as B'.
    pose proof (may_nobar M2 ltac:(lia)).
    pose proof (proj1 (@smallest_pip_spec N _ small b W' B' Vs ltac:(lia)) M2) as [A3 A4].
    exists b. split; auto. rewrite in_big_rng. split; auto; lia.
Qed.

Lemma two_checker_complete r : In r (small_first ++ big_first) <-> two big small p r.
Proof.
  rewrite in_app_iff, in_small_first, in_big_first. unfold two.
  rewrite !(plays_two _ W) by auto.
  assert (D : forall a b, may_move p big a -> may_move (mv p big a) small b -> (b < a)%nat ->
     (exists a0 b0, may_move p small a0 /\ may_move (mv p small a0) big b0 /\ (b0 <= a0)%nat /\
              mv (mv p big a) small b = mv (mv p small a0) big b0) \/
     (exists a0 b0, may_move p big a0 /\ may_move (mv p big a0) small b0 /\ (b0 < a0)%nat /\
              (outcomes a0 = true \/ b0 <> (a0 - big)%nat) /\
              mv (mv p big a) small b = mv (mv p big a0) small b0)).
  { intros a b M1 M2 L.
    destruct (outcomes a) eqn:O; [right; exists a, b; auto 6|].
    destruct (Nat.eq_dec b (a - big)) as [E|E]; [|right; exists a, b; auto 6].
    left. unfold outcomes in O.
    pose proof (may_nobar M2 ltac:(rewrite bar_after; auto; lia)) as Hb.
    destruct (Nat.leb_spec big a); [|lia]. simpl in O. apply Bool.orb_false_iff in O.
    destruct O as [O1 O2]. apply Z.ltb_ge in O1, O2. subst b.
    exists a, (a - small)%nat.
    destruct (@chain_legal N p big small a W Vb Vs) as [C1 C2]; auto; try lia.
    split; auto. split; auto. split; [lia|].
    apply chain_eq; auto; try lia; [apply may_move_range in M1; lia|apply M1]. }
  split.
  - intros [(a & b & M1 & M2 & L & ->)|(a & b & M1 & M2 & L & O & ->)]; [right|left]; eauto.
  - intros [(a & b & M1 & M2 & ->)|(a & b & M1 & M2 & ->)].
    + destruct (Nat.lt_ge_cases b a) as [L|L]; [apply D; auto|].
      destruct (commute W Vb Vs L M1 M2) as (C1 & C2 & C3).
      left. exists b, a. auto 6.
    + destruct (Nat.le_gt_cases b a) as [L|L]; [left; exists a, b; auto 6|].
      destruct (commute W Vs Vb (Nat.lt_le_incl _ _ L) M1 M2) as (C1 & C2 & C3).
      rewrite <- C3. apply D; auto.
Qed.

Lemma one_checker_ret m d : valid_die d -> exists l, one_checker_moves m p d = Ret l /\
  forall r, In r l <-> plays [d] p r.
Proof.
  intros V. unfold one_checker_moves. rewrite (index_ret _ 0) by (rewrite Hl; unfold X_BAR; lia).
  rewrite bind_ret. unfold X_BAR at 1. fold (pt p 25).
  rewrite debug_assert_ret by (apply Z.eqb_eq; auto). rewrite bind_ret.
  erewrite loop_ret; eauto.
  2:{ intros i Hi. rewrite in_range in Hi. pose proof (sp_pos W V (proj1 Hi)). unfold X_BAR in *. lia. }
  eexists; split; [reflexivity|]. intros r. rewrite in_tp, (plays_one _ W) by auto.
  split.
  - intros (i & Hi & E & ->). rewrite in_range in Hi. unfold X_BAR in *. exists i. split; auto.
    eapply sp_may; eauto; lia.
  - intros (i & M & ->). pose proof (may_nobar M ltac:(lia)).
    pose proof (proj1 (@smallest_pip_spec N p d i W Bar V ltac:(lia)) M) as [A1 A2].
    exists i. split; auto. rewrite in_range. unfold X_BAR. lia.
Qed.

Lemma bar0_correct m : exists l, moves_with_0_checkers_on_bar m p big small = Ret l /\
  l <> [] /\ forall r, In r l <-> legal_result (Mixed big small) p r.
Proof.
  unfold moves_with_0_checkers_on_bar. rewrite (index_ret _ 0) by (rewrite Hl; unfold X_BAR; lia).
  rewrite bind_ret. unfold X_BAR at 1. fold (pt p 25).
  rewrite debug_assert_ret by (apply Z.eqb_eq; auto). rewrite bind_ret.
  rewrite two_checker_ret, bind_ret.
  pose proof two_checker_complete as T.
  destruct (small_first ++ big_first) as [|q l] eqn:E.
  2:{ eexists; split; [reflexivity|]. split; [discriminate|]. intros r.
      rewrite legal_mixed by auto. rewrite T. split; auto.
      assert (Hq : two big small p q) by (apply T; left; auto).
      intros [H|[[H _]|[[H _]|[H _]]]]; auto; exfalso; eapply H; eauto. }
  assert (NT : forall r, ~ two big small p r) by (intros r H; apply T in H; destruct H).
  clear E T.
  destruct (one_checker_ret m Vb) as (lb & Eb & Hb). rewrite Eb, bind_ret.
  destruct lb as [|q l].
  2:{ eexists; split; [reflexivity|]. split; [discriminate|]. intros r.
      rewrite legal_mixed by auto. rewrite Hb. split; auto.
      assert (Hq : plays [big] p q) by (apply Hb; left; auto).
      intros [H|[[_ H]|[(_ & H & _)|(_ & H & _)]]]; auto; exfalso; eapply H || eapply NT; eauto. }
  assert (NB : forall r, ~ plays [big] p r) by (intros r H; apply Hb in H; destruct H).
  destruct (one_checker_ret m Vs) as (ls & Es & Hs). rewrite Es, bind_ret.
  destruct ls as [|q l].
  2:{ eexists; split; [reflexivity|]. split; [discriminate|]. intros r.
      rewrite legal_mixed by auto. rewrite Hs. split; auto 6.
      assert (Hq : plays [small] p q) by (apply Hs; left; auto).
      intros [H|[[_ H]|[(_ & _ & H)|(_ & _ & H & _)]]]; auto; exfalso;
        [eapply NT|eapply NB|eapply H]; eauto. }
  assert (NS : forall r, ~ plays [small] p r) by (intros r H; apply Hs in H; destruct H).
  eexists; split; [reflexivity|]. split; [discriminate|]. intros r.
  rewrite legal_mixed by auto. simpl. split.
  - intros [<-|[]]. auto 10.
  - intros [H|[[_ H]|[(_ & _ & H)|(_ & _ & _ & ->)]]]; auto; exfalso;
        [eapply NT|eapply NB|eapply NS]; eauto.
Qed.
End NoBar.

(** ** Exactly one checker on the bar *)

Section OneBar.
Variables (N : Z) (p : position) (big small : nat).
Hypotheses (W : wf N p) (Vb : valid_die big) (Vs : valid_die small) (Hbs : (small < big)%nat)
           (Bar : pt p 25 = 1).

Let Hl : length (pips p) = 26%nat := wf_len W.

Lemma bar1_after d : valid_die d -> pt (mv p d 25) 25 = 0.
Proof. intros [V1 V2]. rewrite pt_mv_from by (auto; lia). lia. Qed.

(** After entering there is a checker outside the home board, so nothing is borne off. *)
Lemma bar1_second d e i : valid_die d -> valid_die e -> may_move p d 25 -> (i <= 24)%nat ->
  may_move (mv p d 25) e i <-> (e < i)%nat /\ cm (mv p d 25) e i = true.
Proof.
  intros Vd Ve M Hi. pose proof (may_wf W Vd M) as W'.
  assert (P : 0 < pt (mv p d 25) (25 - d)).
  { destruct Vd. apply pt_mv_land_pos; auto; try lia. apply M. lia. }
  destruct Vd as [D1 D2], Ve as [E1 E2]. unfold may_move, cm. split.
  - intros (A1 & A2 & A3 & A4 & A5). split.
    + destruct (Nat.le_gt_cases i e) as [L|L]; auto. destruct (A5 L) as [A6 _].
      specialize (A6 (25 - d)%nat). lia.
    + destruct (Z.ltb_spec (pt (mv p d 25) i) 1); [lia|].
      destruct (Nat.ltb_spec e i); auto. apply Z.ltb_lt. auto.
  - intros [L H]. destruct (Z.ltb_spec (pt (mv p d 25) i) 1); [discriminate|].
    destruct (Nat.ltb_spec e i); [|lia]. apply Z.ltb_lt in H.
    rewrite bar1_after by (split; auto). repeat split; try lia; auto.
Qed.

Definition outcomes1 : bool := (pt p (25 - big) <? 0) || (pt p (25 - small) <? 0).
Definition rng1 : list nat :=
  if outcomes1 then range (big + 1) 25 ++ range 1 0
  else range (big + 1) (25 - small) ++ range (25 - small + 1) 25.

Lemma in_rng1 i : In i rng1 <->
  (big < i < 25)%nat /\ (outcomes1 = true \/ i <> (25 - small)%nat).
Proof.
  destruct Vb, Vs. unfold rng1. destruct outcomes1; rewrite in_app_iff, !in_range; intuition lia.
Qed.

Lemma bar1_correct m : exists l, moves_with_1_checker_on_bar m p big small = Ret l /\
  l <> [] /\ forall r, In r l <-> legal_result (Mixed big small) p r.
Proof.
  destruct Vb as [B1 B2], Vs as [S1 S2].
  unfold moves_with_1_checker_on_bar. rewrite (index_ret _ 0) by (rewrite Hl; unfold X_BAR; lia).
  rewrite bind_ret. unfold X_BAR. fold (pt p 25).
  rewrite debug_assert_ret by (apply Z.eqb_eq; auto). rewrite bind_ret.
  rewrite !can_enter_ret by (auto; lia). rewrite bind_ret.
  set (eb := -2 <? pt p (25 - big)). set (es := -2 <? pt p (25 - small)).
  assert (Eb : eb = true <-> may_move p big 25)
    by (unfold eb; rewrite Z.ltb_lt, may_enter by (auto; lia); reflexivity).
  assert (Es : es = true <-> may_move p small 25)
    by (unfold es; rewrite Z.ltb_lt, may_enter by (auto; lia); reflexivity).
  set (m1 := if eb then flat_map (tp (mv p big 25) small) (range (small + 1) 25) else []).
  set (m2 := if es then flat_map (tp (mv p small 25) big) rng1 else []).
  assert (R1 : (if eb then
        q <- enter_single_checker m p big ;;
        l <- mflat_map (try_push m q small) (range (small + 1) 25) ;;
        Ret (Some q, l)
      else Ret (None, [])) = Ret (if eb then Some (mv p big 25) else None, m1)).
  { unfold m1. destruct eb; auto. assert (M : may_move p big 25) by (apply Eb; auto).
    rewrite (enter_ret m W Vb M), bind_ret.
    rewrite (loop_ret m _ (may_wf W Vb M) Vs); [reflexivity|].
    intros i Hi. apply in_range in Hi. lia. }
  rewrite R1. cbv beta iota. rewrite bind_ret.
  rewrite usub_ret by lia. rewrite bind_ret, (index_ret _ 0) by lia. rewrite bind_ret.
  rewrite usub_ret by lia. rewrite bind_ret, (index_ret _ 0) by lia. rewrite bind_ret.
  fold (pt p (25 - big)) (pt p (25 - small)). rewrite bind_ret.
  assert (R2 : (if es then
        q <- enter_single_checker m p small ;;
        (let rng := if (pt p (25 - big) <? 0) || (pt p (25 - small) <? 0)
                   then range (big + 1) 25 ++ range 1 0
                   else range (big + 1) (25 - small)
                        ++ range (25 - small + 1) 25 in
        l <- mflat_map (try_push m q big) rng ;;
        Ret (Some q, l))
      else Ret (None, [])) = Ret (if es then Some (mv p small 25) else None, m2)).
  { unfold m2. destruct es; auto. assert (M : may_move p small 25) by (apply Es; auto).
    rewrite (enter_ret m W Vs M), bind_ret. fold outcomes1. fold rng1. cbv zeta.
    rewrite (loop_ret m _ (may_wf W Vs M) Vb); [reflexivity|].
    intros i Hi. apply in_rng1 in Hi. lia. }
  cbv zeta in R2 |- *. rewrite R2. clear R1 R2. rewrite bind_ret.
  (* what the two loops contain *)
  assert (I1 : forall r, In r m1 <->
     exists b, may_move p big 25 /\ may_move (mv p big 25) small b /\ r = mv (mv p big 25) small b).
  { intros r. unfold m1. destruct eb eqn:F.
    - rewrite in_tp. assert (M : may_move p big 25) by (apply Eb; auto).
      split.
      + intros (i & Hi & C & ->). apply in_range in Hi. exists i. split; auto. split; auto.
        apply bar1_second; auto; try lia. split; auto; lia.
      + intros (i & _ & M2 & ->). pose proof (may_nobar M2 ltac:(rewrite bar1_after; auto; lia)).
        apply bar1_second in M2; auto; try lia. exists i. rewrite in_range. split; [lia|]. split; auto.
        apply M2.
    - split; [intros []|]. intros (i & M & _). apply Eb in M. congruence. }
  assert (I2 : forall r, In r m2 <->
     exists b, may_move p small 25 /\ may_move (mv p small 25) big b /\
               (outcomes1 = true \/ b <> (25 - small)%nat) /\ r = mv (mv p small 25) big b).
  { intros r. unfold m2. destruct es eqn:F.
    - rewrite in_tp. assert (M : may_move p small 25) by (apply Es; auto).
      split.
      + intros (i & Hi & C & ->). apply in_rng1 in Hi. exists i. split; auto. split.
        * apply bar1_second; auto; try lia. split; auto; lia.
        * split; auto. tauto.
      + intros (i & _ & M2 & O & ->). pose proof (may_nobar M2 ltac:(rewrite bar1_after; auto; lia)).
        apply bar1_second in M2; auto; try lia. exists i. rewrite in_rng1. split; [split; auto; lia|].
        split; auto. apply M2.
    - split; [intros []|]. intros (i & M & _). apply Es in M. congruence. }
  assert (T : forall r, In r (m1 ++ m2) <-> two big small p r).
  { intros r. rewrite in_app_iff, I1, I2. unfold two. rewrite !(plays_two _ W) by auto. split.
    - intros [(b & M1 & M2 & ->)|(b & M1 & M2 & _ & ->)]; [left|right]; eauto 6.
    - intros [(a & b & M1 & M2 & ->)|(a & b & M1 & M2 & ->)];
        (assert (a = 25%nat) by (eapply may_bar; [|exact M1]; lia); subst a); [left; eauto|].
      destruct outcomes1 eqn:O; [right; eauto 8|].
      destruct (Nat.eq_dec b (25 - small)) as [->|]; [|right; eauto 8].
      left. unfold outcomes1 in O. apply Bool.orb_false_iff in O. destruct O as [O1 O2].
      apply Z.ltb_ge in O1, O2.
      destruct (@chain_legal N p small big 25 W Vs Vb) as [C1 C2]; auto; try lia.
      exists (25 - big)%nat. split; auto. split; auto. apply chain_eq; auto; lia. }
  assert (OB : forall r, plays [big] p r <-> may_move p big 25 /\ r = mv p big 25).
  { intros r. rewrite (plays_one _ W) by auto. split.
    - intros (a & M & ->). assert (a = 25%nat) by (eapply may_bar; [|exact M]; lia). subst; auto.
    - intros [M ->]. eauto. }
  assert (OS : forall r, plays [small] p r <-> may_move p small 25 /\ r = mv p small 25).
  { intros r. rewrite (plays_one _ W) by auto. split.
    - intros (a & M & ->). assert (a = 25%nat) by (eapply may_bar; [|exact M]; lia). subst; auto.
    - intros [M ->]. eauto. }
  destruct (m1 ++ m2) as [|q l] eqn:E.
  2:{ eexists; split; [reflexivity|]. split; [discriminate|]. intros r.
      rewrite legal_mixed by auto. rewrite T. split; auto.
      assert (Hq : two big small p q) by (apply T; left; auto).
      intros [H|[[H _]|[[H _]|[H _]]]]; auto; exfalso; eapply H; eauto. }
  assert (NT : forall r, ~ two big small p r) by (intros r H; apply T in H; destruct H).
  destruct eb eqn:F.
  { eexists; split; [reflexivity|]. split; [discriminate|]. intros r. rewrite legal_mixed by auto.
    assert (M : may_move p big 25) by (apply Eb; auto). simpl. split.
    - intros [<-|[]]. right; left. split; auto. apply OB; auto.
    - intros [H|[[_ H]|[(_ & H & _)|(_ & H & _)]]]; auto.
      + exfalso; eapply NT; eauto.
      + apply OB in H. destruct H; auto.
      + exfalso; eapply H. apply OB; eauto.
      + exfalso; eapply H. apply OB; eauto. }
  assert (NB : forall r, ~ plays [big] p r).
  { intros r H. apply OB in H. destruct H as [H _]. apply Eb in H. congruence. }
  destruct es eqn:G.
  { eexists; split; [reflexivity|]. split; [discriminate|]. intros r. rewrite legal_mixed by auto.
    assert (M : may_move p small 25) by (apply Es; auto). simpl. split.
    - intros [<-|[]]. right; right; left. split; auto. split; auto. apply OS; auto.
    - intros [H|[[_ H]|[(_ & _ & H)|(_ & _ & H & _)]]]; auto.
      + exfalso; eapply NT; eauto.
      + exfalso; eapply NB; eauto.
      + apply OS in H. destruct H; auto.
      + exfalso; eapply H. apply OS; eauto. }
  assert (NS : forall r, ~ plays [small] p r).
  { intros r H. apply OS in H. destruct H as [H _]. apply Es in H. congruence. }
  eexists; split; [reflexivity|]. split; [discriminate|]. intros r.
  rewrite legal_mixed by auto. simpl. split.
  - intros [<-|[]]. auto 10.
  - intros [H|[[_ H]|[(_ & _ & H)|(_ & _ & _ & ->)]]]; auto; exfalso;
        [eapply NT|eapply NB|eapply NS]; eauto.
Qed.
End OneBar.

(** ** Two or more checkers on the bar *)

Section TwoBar.
Variables (N : Z) (p : position) (big small : nat).
Hypotheses (W : wf N p) (Vb : valid_die big) (Vs : valid_die small) (Hbs : (small < big)%nat)
           (Bar : 1 < pt p 25).

Let Hl : length (pips p) = 26%nat := wf_len W.

Lemma bar2_correct m : exists l, moves_with_2_checkers_on_bar m p big small = Ret l /\
  l <> [] /\ forall r, In r l <-> legal_result (Mixed big small) p r.
Proof.
  destruct Vb as [B1 B2], Vs as [S1 S2].
  unfold moves_with_2_checkers_on_bar. rewrite (index_ret _ 0) by (rewrite Hl; unfold X_BAR; lia).
  rewrite bind_ret. unfold X_BAR. fold (pt p 25).
  rewrite debug_assert_ret by (apply Z.ltb_lt; auto). rewrite bind_ret.
  rewrite can_enter_ret by (auto; lia). rewrite bind_ret.
  assert (B' : forall d, valid_die d -> pt (mv p d 25) 25 = pt p 25 - 1).
  { intros d [D1 D2]. rewrite pt_mv_from; auto; lia. }
  assert (U : forall d e, valid_die d -> valid_die e -> d <> e ->
              pt (mv p d 25) (25 - e) = pt p (25 - e)).
  { intros d e [D1 D2] [E1 E2] Ne. apply pt_mv_other; auto; lia. }
  assert (OP : forall d r, valid_die d -> plays [d] p r <-> -2 < pt p (25 - d) /\ r = mv p d 25).
  { intros d r V. rewrite (plays_one _ W) by auto. rewrite <- may_enter by (auto; lia). split.
    - intros (a & M & ->). assert (a = 25%nat) by (eapply may_bar; [|exact M]; lia). subst; auto.
    - intros [M ->]. eauto. }
  assert (TP : forall r, two big small p r <->
            -2 < pt p (25 - big) /\ -2 < pt p (25 - small) /\ r = mv (mv p big 25) small 25).
  { intros r. unfold two. rewrite !(plays_two _ W) by auto. split.
    - intros [(a & b & M1 & M2 & ->)|(a & b & M1 & M2 & ->)];
        (assert (a = 25%nat) by (eapply may_bar; [|exact M1]; lia); subst a);
        (assert (b = 25%nat) by (eapply may_bar; [|exact M2]; rewrite B'; auto; lia); subst b);
        apply may_enter in M1; auto; try lia;
        apply may_enter in M2; auto; try (rewrite B'; auto; lia);
        rewrite U in M2 by (auto; lia); split; auto; split; auto.
      apply mv_comm; auto; lia.
    - intros (H1 & H2 & ->). left. exists 25%nat, 25%nat.
      rewrite (may_enter p) by (auto; lia).
      rewrite (may_enter (mv p big 25)) by (auto; rewrite B'; auto; lia).
      rewrite U by (auto; lia). auto. }
  destruct (Z.ltb_spec (-2) (pt p (25 - big))) as [Eb|Eb].
  - assert (M : may_move p big 25) by (apply may_enter; auto; lia).
    rewrite (enter_ret m W Vb M), bind_ret.
    rewrite can_enter_ret by (auto using mv_length; rewrite B'; auto; lia). rewrite bind_ret.
    rewrite U by (auto; lia).
    destruct (Z.ltb_spec (-2) (pt p (25 - small))) as [Es|Es].
    + assert (M' : may_move (mv p big 25) small 25).
      { apply may_enter; auto; [rewrite B'; auto; lia|]. rewrite U; auto; lia. }
      rewrite (enter_ret m (may_wf W Vb M) Vs M'), bind_ret.
      eexists; split; [reflexivity|]. split; [discriminate|]. intros r.
      rewrite legal_mixed by auto.
      assert (T : two big small p (mv (mv p big 25) small 25)) by (apply TP; auto).
      simpl. split.
      * intros [<-|[]]. left. auto.
      * intros [H|[[H _]|[[H _]|[H _]]]]; try (exfalso; eapply H; eauto; fail).
        apply TP in H. destruct H as (_ & _ & ->). auto.
    + rewrite bind_ret. eexists; split; [reflexivity|]. split; [discriminate|]. intros r.
      rewrite legal_mixed by auto. simpl. split.
      * intros [<-|[]]. right; left. split; [intros r' H; apply TP in H; lia|].
        apply OP; auto.
      * intros [H|[[_ H]|[(_ & H & _)|(_ & H & _)]]].
        -- apply TP in H. lia.
        -- apply OP in H; auto. destruct H; auto.
        -- exfalso. eapply H. apply OP; eauto.
        -- exfalso. eapply H. apply OP; eauto.
  - rewrite bind_ret. rewrite can_enter_ret by (auto; lia). rewrite bind_ret.
    destruct (Z.ltb_spec (-2) (pt p (25 - small))) as [Es|Es].
    + assert (M : may_move p small 25) by (apply may_enter; auto; lia).
      rewrite (enter_ret m W Vs M), bind_ret.
      eexists; split; [reflexivity|]. split; [discriminate|]. intros r.
      rewrite legal_mixed by auto. simpl. split.
      * intros [<-|[]]. right; right; left. split; [intros r' H; apply TP in H; lia|].
        split; [intros r' H; apply OP in H; auto; lia|]. apply OP; auto.
      * intros [H|[[_ H]|[(_ & _ & H)|(_ & _ & H & _)]]].
        -- apply TP in H. lia.
        -- apply OP in H; auto. lia.
        -- apply OP in H; auto. destruct H; auto.
        -- exfalso. eapply H. apply OP; eauto.
    + rewrite bind_ret. eexists; split; [reflexivity|]. split; [discriminate|]. intros r.
      rewrite legal_mixed by auto. simpl. split.
      * intros [<-|[]]. right; right; right.
        split; [intros r' H; apply TP in H; lia|].
        split; [intros r' H; apply OP in H; auto; lia|].
        split; [intros r' H; apply OP in H; auto; lia|auto].
      * intros [H|[[_ H]|[(_ & _ & H)|(_ & _ & _ & ->)]]]; auto.
        -- apply TP in H. lia.
        -- apply OP in H; auto. lia.
        -- apply OP in H; auto. lia.
Qed.
End TwoBar.

(** ** All mixed rolls *)

Lemma mixed_correct N m p big small : wf N p -> valid_dice (Mixed big small) ->
  exists l, all_positions_after_mixed_move m p big small = Ret l /\
  l <> [] /\ forall r, In r l <-> legal_result (Mixed big small) p r.
Proof.
  intros W (Vb & Vs & Hbs). unfold all_positions_after_mixed_move.
  rewrite debug_assert_ret by (apply Nat.ltb_lt; auto). rewrite bind_ret.
  rewrite (index_ret _ 0) by (rewrite (wf_len W); unfold X_BAR; lia). rewrite bind_ret.
  unfold X_BAR. fold (pt p 25). pose proof (wf_xbar W).
  destruct (Z.eqb_spec (pt p 25) 0); [eapply bar0_correct; eauto|].
  destruct (Z.eqb_spec (pt p 25) 1); [eapply bar1_correct; eauto|].
  eapply bar2_correct; eauto. lia.
Qed.
