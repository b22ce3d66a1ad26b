(** C91: the mover's bar after a play is forced, so [NoHitRules] lists all or nothing. *)
From Coq Require Import Permutation.
From Verif Require Import SpecNoHit PropMoves PropGame PropExact2 GameFacts VariantFacts MoveFacts MoveGenProof.
Unset Implicit Arguments.
Open Scope Z_scope.

(** One move from the bar or none, and entry points stay what they are. *)
Lemma step_bar N p d a q : wf N p -> valid_die d -> may_move p d a -> moved p d a q ->
  pt q 25 = Z.max 0 (pt p 25 - 1) /\ (0 < pt p 25 -> enters_with p d = true) /\
  forall e, valid_die e -> enters_with q e = enters_with p e.
Proof.
  intros W V (R & Hp & Hb & Hl & Ho) M. pose proof (wf_xbar W) as XB. unfold valid_die in V.
  destruct (Nat.eq_dec a 25) as [->|Na].
  - assert (L : (d < 25)%nat) by lia. pose proof (mvd_from M) as E. split; [lia|].
    split; [intros _; unfold enters_with; apply Z.ltb_lt; exact (Hl L)|].
    intros e Ve. unfold valid_die in Ve. unfold enters_with. specialize (Hl L).
    destruct (Nat.eq_dec e d) as [->|Ne].
    + destruct (Z.eq_dec (pt p (25 - d)) (-1)) as [E1|E1].
      * destruct (mvd_hit M (conj L E1)) as [E2 _]. rewrite E2. rewrite E1. reflexivity.
      * rewrite (mvd_land M L E1). apply eq_true_iff_eq. rewrite !Z.ltb_lt. lia.
    + rewrite (mvd_rest M (i := (25 - e)%nat)) by lia. reflexivity.
  - assert (B0 : pt p 25 = 0) by (specialize (Hb Na); lia). split.
    { rewrite (mvd_rest M (i := 25%nat)) by lia. lia. }
    split; [lia|]. intros e Ve. unfold valid_die in Ve. unfold enters_with.
    destruct (Nat.eq_dec (25 - e) a) as [<-|Nf].
    + rewrite (mvd_from M). apply eq_true_iff_eq. rewrite !Z.ltb_lt. lia.
    + destruct (Nat.eq_dec (25 - e) (a - d)) as [E|E].
      * assert (L : (d < a)%nat) by lia. specialize (Hl L). rewrite E.
        destruct (Z.eq_dec (pt p (a - d)) (-1)) as [E1|E1].
        -- destruct (mvd_hit M (conj L E1)) as [E2 _]. rewrite E2, E1. reflexivity.
        -- rewrite (mvd_land M L E1). apply eq_true_iff_eq. rewrite !Z.ltb_lt. lia.
      * rewrite (mvd_rest M (i := (25 - e)%nat)) by lia. reflexivity.
Qed.
Lemma plays_bar N : forall ds p r, wf N p -> Forall valid_die ds -> plays ds p r ->
  pt r 25 = Z.max 0 (pt p 25 - Z.of_nat (length ds)) /\
  Forall (fun a => enters_with p a = true) (firstn (Z.to_nat (pt p 25)) ds).
Proof.
  induction ds as [|d ds IH]; intros p r W F P; inversion P; subst.
  - pose proof (wf_xbar W). split; [cbn [length]; lia|rewrite firstn_nil; constructor].
  - inversion F as [|? ? V F']; subst. pose proof (wf_xbar W) as XB.
    match goal with X : may_move _ _ _ |- _ => rename X into M end.
    match goal with X : moved _ _ _ _ |- _ => rename X into Q end.
    match goal with X : plays _ _ _ |- _ => rename X into P' end.
    destruct (step_bar N p d _ _ W V M Q) as (B & En & Inv).
    assert (Wq : wf N q).
    { pose proof (may_move_range M) as R. pose proof V as [V1 V2]. pose proof (wf_len W) as L.
      apply moved_iff in Q; auto. subst. exact (may_wf W V M). }
    destruct (IH _ _ Wq F' P') as [B' E']. split; [cbn [length]; lia|].
    destruct (Z_lt_le_dec 0 (pt p 25)) as [Lt|Le].
    + replace (Z.to_nat (pt p 25)) with (S (Z.to_nat (pt q 25))) by lia. cbn [firstn]. constructor; [auto|].
      rewrite Forall_forall in E' |- *. intros x I. rewrite <- Inv; auto.
      rewrite Forall_forall in F'. apply F'. rewrite <- (firstn_skipn (Z.to_nat (pt q 25)) ds). apply in_or_app. left; exact I.
    + replace (Z.to_nat (pt p 25)) with 0%nat by lia. constructor.
Qed.

(** Open dice can be played from the bar. *)
Lemma can_enter N : forall es p, wf N p -> Forall valid_die es -> Forall (fun a => enters_with p a = true) es ->
  Z.of_nat (length es) <= pt p 25 -> exists r, plays es p r.
Proof.
  induction es as [|d es IH]; intros p W F E L; [exists p; constructor|].
  inversion F as [|? ? V F']; inversion E as [|? ? Ed E']; subst. cbn [length] in L.
  assert (M : may_move p d 25).
  { unfold valid_die in V. unfold enters_with in Ed. apply Z.ltb_lt in Ed.
    split; [lia|]. split; [lia|]. split; [congruence|]. split; [auto|]. lia. }
  assert (Q : moved p d 25 (mv p d 25)).
  { apply moved_iff; [apply W|lia|apply V|reflexivity]. }
  destruct (step_bar N p d _ _ W V M Q) as (B & En & Inv).
  destruct (IH (mv p d 25) (may_wf W V M) F') as (r & P).
  - rewrite Forall_forall in *. intros x I. rewrite Inv; auto.
  - lia.
  - exists r. econstructor; eauto.
Qed.

Lemma filter_len_perm (f : nat -> bool) l l' : Permutation l l' -> length (filter f l) = length (filter f l').
Proof. induction 1; cbn [filter]; repeat (destruct (f _)); cbn [length] in *; congruence || lia. Qed.
Lemma filter_all (f : nat -> bool) l : Forall (fun a => f a = true) l -> filter f l = l.
Proof. induction 1; cbn [filter]; [reflexivity|]. rewrite H. f_equal. auto. Qed.
Lemma pool_valid d : valid_dice d -> Forall valid_die (pool d).
Proof.
  intros V. apply Forall_forall. intros x I. destruct d; cbn [pool In] in I; unfold valid_dice in V;
  repeat destruct I as [<-|I]; try tauto.
Qed.
Lemma split_filter (f : nat -> bool) l : exists rest, Permutation (filter f l ++ rest) l.
Proof.
  exists (filter (fun a => negb (f a)) l). induction l as [|a l IH]; [constructor|]. cbn [filter].
  destruct (f a); cbn [negb app]; [constructor; auto|].
  transitivity (a :: filter f l ++ filter (fun a => negb (f a)) l); [symmetry; apply Permutation_middle|constructor; auto].
Qed.

Lemma legal_bar N p d ds r : wf N p -> valid_dice d -> legal_play d p ds r ->
  pt r 25 = Z.max 0 (pt p 25 - entering d p).
Proof.
  intros W V (U & P & Mx & _). pose proof (wf_xbar W) as XB. pose proof (uses_valid V U) as F.
  destruct (plays_bar N ds p r W F P) as [B E]. unfold entering.
  destruct U as (rest & U). pose proof (filter_len_perm (enters_with p) _ _ U) as EL.
  rewrite filter_app, app_length in EL.
  assert (Lo : (Nat.min (Z.to_nat (pt p 25)) (length ds) <= length (filter (enters_with p) ds))%nat).
  { rewrite <- (firstn_skipn (Z.to_nat (pt p 25)) ds) at 2. rewrite filter_app, app_length, (filter_all _ _ E), firstn_length. lia. }
  (* the entering dice, as many as there are checkers on the bar, can be played *)
  set (es := firstn (Z.to_nat (pt p 25)) (filter (enters_with p) (pool d))).
  assert (Sub : exists rest', Permutation (es ++ rest') (pool d)).
  { destruct (split_filter (enters_with p) (pool d)) as (r1 & P1).
    exists (skipn (Z.to_nat (pt p 25)) (filter (enters_with p) (pool d)) ++ r1). unfold es.
    rewrite app_assoc, firstn_skipn. exact P1. }
  assert (Fes : forall x, In x es -> In x (filter (enters_with p) (pool d))).
  { intros x I. rewrite <- (firstn_skipn (Z.to_nat (pt p 25)) (filter (enters_with p) (pool d))). apply in_or_app. left; exact I. }
  destruct (can_enter N es p W) as (r' & P').
  - apply Forall_forall. intros x I. apply Fes, filter_In in I. pose proof (pool_valid d V) as X. rewrite Forall_forall in X. apply X, I.
  - apply Forall_forall. intros x I. apply Fes, filter_In in I. apply I.
  - unfold es. rewrite firstn_length. lia.
  - pose proof (Mx es r' Sub P') as Hm. unfold es in Hm. rewrite firstn_length in Hm. lia.
Qed.

(** ** C91 *)

(** Which checkers stay on the bar is not the mover's choice: after every listed play the same number is left
    there, the checkers that no die of the roll enters. *)
Theorem C91_bar_forced : forall m k v d l w, vwf k v -> vongoing v -> valid_dice d ->
  legal_positions m v d = Ret l -> In w l -> - pt (board_of w) 0 = must_stay d v.
Proof.
  intros m k v d l w W O V E I. destruct (@C01_legal_positions_exact m k v d W O V) as (l' & E' & H).
  rewrite E in E'. inversion E'; subst l'. apply H in I. destruct W as (p & -> & W).
  destruct (vlegal_wf _ W V I) as (r & -> & (ds & LP) & Wr). unfold must_stay. rewrite !board_of_tag.
  rewrite pt_flipP by (try apply Wr; lia). change (25 - 0)%nat with 25%nat. rewrite (legal_bar _ _ _ _ _ W V LP). lia.
Qed.

(** [NoHitRules] lists everything [ClassicRules] lists, or nothing: nothing exactly when more checkers of the
    mover must stay on the bar than the opponent has there. *)
Theorem C91_all_or_nothing : forall m k v d, vwf k v -> vongoing v -> valid_dice d ->
  (must_stay d v <= opponent_on_bar v -> no_hit_rules m v d = legal_positions m v d) /\
  (opponent_on_bar v < must_stay d v -> no_hit_rules m v d = Ret []).
Proof.
  intros m k v d W O V. destruct (@C67_no_hit_exact m k v d W O V) as (l & keep & El & En & K).
  assert (B : forall w, In w l -> keep w = (must_stay d v <=? opponent_on_bar v)).
  { intros w I. apply eq_true_iff_eq. rewrite (K w I), Z.leb_le, (C91_bar_forced m k v d l w W O V El I).
    unfold opponent_on_bar. tauto. }
  rewrite En, El. assert (Fl : filter keep l = if must_stay d v <=? opponent_on_bar v then l else []).
  { clear -B. induction l as [|w l IH]; cbn [filter]; [destruct (_ <=? _); reflexivity|].
    rewrite IH by (intros; apply B; right; auto). rewrite (B w (or_introl eq_refl)). destruct (_ <=? _); reflexivity. }
  rewrite Fl. split; intros H.
  - destruct (Z.leb_spec (must_stay d v) (opponent_on_bar v)); [reflexivity|lia].
  - destruct (Z.leb_spec (must_stay d v) (opponent_on_bar v)); [lia|reflexivity].
Qed.
(** So without a checker on the bar [NoHitRules] changes nothing, hits included. *)
Theorem C91_off_the_bar : forall m k v d, vwf k v -> vongoing v -> valid_dice d -> pt (board_of v) 25 = 0 ->
  no_hit_rules m v d = legal_positions m v d.
Proof.
  intros m k v d W O V B. apply (C91_all_or_nothing m k v d W O V). unfold must_stay, opponent_on_bar, entering. rewrite B.
  destruct W as (p & -> & W). rewrite board_of_tag. pose proof (wf_obar W). lia.
Qed.

(** An episode under [NoHitRules] is the episode under [ClassicRules], unless it meets such a roll: then it
    stops there, in the middle of the game, and reports the plies so far as success. *)
Lemma episode_no_hit_loop : forall {G S} m (D : dice_gen G) (P : policy S) max, fair_gen D ->
  forall todo ply g dg ps, vwf (g_variant g) (g_position g) -> vongoing (g_position g) ->
  episode_loop m (no_hit_rules m) D P max todo ply g dg ps = episode_loop m (classic_rules m) D P max todo ply g dg ps \/
  exists j v dg1 ps1 d dg2, (j < todo)%nat /\
    plies (classic_rules m) D P ply (g_position g, dg, ps) j (v, dg1, ps1) /\ vongoing v /\
    (if (ply + j =? 0)%nat then gen_roll_mixed D dg1 else gen_roll D dg1) = Ret (d, dg2) /\
    opponent_on_bar v < must_stay d v /\
    episode_loop m (no_hit_rules m) D P max todo ply g dg ps =
      Ret (GOk (ply + j)%nat, {| g_variant := g_variant g; g_position := v |}, dg2, ps1).
Proof.
  intros G S m D P max (F1 & F2). induction todo as [|todo IH]; intros ply g dg ps W O; [left; reflexivity|].
  cbn [episode_loop].
  assert (R : exists d dg', (if (ply =? 0)%nat then gen_roll_mixed D dg else gen_roll D dg) = Ret (d, dg') /\ valid_dice d).
  { destruct (ply =? 0)%nat.
    - destruct (F2 dg) as (d & dg' & E & V & _). eauto.
    - destruct (F1 dg) as (d & dg' & E & V). eauto. }
  destruct R as (d & dg' & ER & V). rewrite ER, !bind_ret. unfold game_legal_positions_with.
  destruct (C91_all_or_nothing m _ _ d W O V) as [A B].
  destruct (Z_le_gt_dec (must_stay d (g_position g)) (opponent_on_bar (g_position g))) as [Le|Gt].
  - rewrite (A Le). change (classic_rules m (g_position g) d) with (legal_positions m (g_position g) d).
    destruct (@C01_legal_positions_exact m _ _ d W O V) as (l & EL & HL). rewrite EL, !bind_ret.
    destruct l as [|w0 l0] eqn:El; [left; reflexivity|]. rewrite <- El in *.
    destruct (P ps (g_position g) d l) as (i, ps') eqn:EP. destruct (Nat.leb_spec (length l) i) as [Hi|Hi]; [left; reflexivity|].
    destruct (nth_error l i) as [w|] eqn:EN; [|apply nth_error_None in EN; lia].
    unfold index. rewrite EN, !bind_ret. cbn [g_position g_variant].
    pose proof (proj1 (HL w) (nth_error_In _ _ EN)) as LW. pose proof (vlegal_vwf W V LW) as Ww.
    destruct (vp_game_state m w) as [[|r]|] eqn:Eg; rewrite ?bind_ret; try (left; reflexivity).
    assert (Ow : vongoing w).
    { destruct Ww as (q & -> & Wq). rewrite vp_game_state_tag in Eg. rewrite vongoing_tag.
      destruct W as (p & Ep & W). rewrite Ep in *. rewrite vongoing_tag in O. pose proof (legal_not_both _ W O V LW) as NB.
      rewrite board_of_tag in NB.
      destruct (game_state_outcome m Wq (or_introl NB)) as (s & Es & Os). rewrite Es in Eg. inversion Eg; subst. inversion Os; split; auto. }
    destruct (IH (ply + 1)%nat {| g_variant := g_variant g; g_position := w |} dg' ps' Ww Ow) as [X|(j & v & dg1 & ps1 & d2 & dg2 & J & Pl & Ov & Er & Bs & Ee)];
      [left; exact X|]. right. cbn [g_position g_variant] in *.
    exists (Datatypes.S j), v, dg1, ps1, d2, dg2. split; [lia|].
    split; [eapply plies_S; eauto|]. split; [exact Ov|].
    replace (ply + Datatypes.S j)%nat with (ply + 1 + j)%nat by lia. auto.
  - rewrite (B ltac:(lia)), bind_ret. right. exists 0%nat, (g_position g), dg, ps, d, dg'.
    rewrite Nat.add_0_r. split; [lia|]. split; [constructor|]. split; [exact O|]. split; [exact ER|]. split; [lia|].
    destruct g; reflexivity.
Qed.
Theorem C91_episode : forall {G S} m (D : dice_gen G) (P : policy S) max g dg ps,
  vwf (g_variant g) (g_position g) -> vongoing (g_position g) -> fair_gen D ->
  play_episode_with m (no_hit_rules m) D P max g dg ps = play_episode m D P max g dg ps \/
  exists j v dg1 ps1 d dg2, (j < max)%nat /\
    plies (classic_rules m) D P 0 (g_position g, dg, ps) j (v, dg1, ps1) /\ vongoing v /\
    (if (j =? 0)%nat then gen_roll_mixed D dg1 else gen_roll D dg1) = Ret (d, dg2) /\
    opponent_on_bar v < must_stay d v /\
    play_episode_with m (no_hit_rules m) D P max g dg ps =
      Ret (GOk j, {| g_variant := g_variant g; g_position := v |}, dg2, ps1).
Proof. intros G S m D P max g dg ps W O F. exact (episode_no_hit_loop m D P max F max 0 g dg ps W O). Qed.

(** Cases: with two checkers on the bar against o's five-point and one opposing checker there, 6-5 enters
    one: everything is listed; 6-6 enters none, and nothing is listed although passing is legal. *)
Example C91_ex : vwf Backgammon (VBackgammon ex_bar) /\ vongoing (VBackgammon ex_bar) /\ opponent_on_bar (VBackgammon ex_bar) = 1 /\
  must_stay (Mixed 6 5) (VBackgammon ex_bar) = 1 /\ must_stay (Double 6) (VBackgammon ex_bar) = 2 /\
  no_hit_rules Debug (VBackgammon ex_bar) (Double 6) = Ret [] /\
  exists w, legal_positions Debug (VBackgammon ex_bar) (Double 6) = Ret [w].
Proof.
  destruct ex_bar_wf as [W O]. split; [exists ex_bar; split; [reflexivity|exact W]|].
  split; [exact (proj2 (vongoing_tag Backgammon ex_bar) O)|].
  split; [reflexivity|]. split; [reflexivity|]. split; [reflexivity|]. split; [vm_compute; reflexivity|].
  eexists. vm_compute. reflexivity.
Qed.
(** An episode that stops in the middle of the game: x cannot enter with the opening 6-1. *)
Definition ex_dance : position :=
  {| turn := true; pips := [0; 0; 0; 0; 0; 0; 2; 0; 0; 0; 0; 0; 0; 0; 0; 0; 0; 0; 0; -2; 0; 0; 0; 0; -2; 1]; x_off := 12; o_off := 11 |}.
Example C91_episode_ex : let g := {| g_variant := Backgammon; g_position := VBackgammon ex_dance |} in
  vwf (g_variant g) (g_position g) /\ vongoing (g_position g) /\ fair_gen const_gen /\
  play_episode_with Debug (no_hit_rules Debug) const_gen first_policy 100 g tt tt = Ret (GOk 0%nat, g, tt, tt) /\
  exists n g', play_episode Debug const_gen first_policy 100 g tt tt = Ret (GOk (S n), g', tt, tt).
Proof.
  cbn [g_variant g_position]. split; [exists ex_dance; split; [reflexivity|solve_wf]|].
  split; [apply (proj2 (vongoing_tag Backgammon ex_dance)); vm_compute; auto|]. split; [exact const_gen_fair|].
  split; [vm_compute; reflexivity|]. eexists _, _. vm_compute. reflexivity.
Qed.
