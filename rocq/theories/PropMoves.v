(** Properties C01, C02, C03, C05, C22, C43: move generation.
    Read with SpecRules.v and SpecVariants.v (the specification). *)
From Verif Require Import PipFacts VariantFacts ModeFacts Game.
Open Scope Z_scope.

(** ** Non-vacuity: the start positions, and a position with a bar checker. *)
Ltac solve_wf := constructor; vm_compute; try reflexivity; try (split; intro; discriminate); intro; discriminate.

Example start_wf : forall k, vwf k (start_position k) /\ vongoing (start_position k).
Proof.
  intros k. split.
  - destruct k; eexists; (split; [reflexivity|solve_wf]).
  - destruct k; (eexists; eexists; split; [apply tag_surj|]); vm_compute; auto.
Qed.

Definition ex_bar : position :=
  {| turn := false;
     pips := [-1; 0; 3; 0; 0; 0; 4; 0; 3; 0; 0; 0; -5; 3; 0; 0; 0; -3; 0; -5; -1; 0; 0; 0; 0; 2];
     x_off := 0; o_off := 0 |}.
Example ex_bar_wf : wf 15 ex_bar /\ ongoing 15 ex_bar.
Proof. split; [solve_wf|vm_compute; auto]. Qed.

(** ** C01 *)

(** For every variant, position, roll and build: the listed positions are exactly the
    results of the legal plays, seen from the other side. *)
Theorem C01_legal_positions_exact : forall m k v d,
  vwf k v -> vongoing v -> valid_dice d ->
  exists l, legal_positions m v d = Ret l /\ forall w, In w l <-> vlegal d v w.
Proof.
  intros m k v d W O V. destruct (legal_positions_correct m d W O V) as (l & E & _ & H). eauto.
Qed.

(** The same for [Position<N>] with any number of checkers 1..127
    ([PositionRules<N>::legal_positions] / [generate_legal_positions]). *)
Theorem C01_position_rules_exact : forall m N p d,
  wf N p -> ongoing N p -> valid_dice d ->
  exists l, classic_positions m N p d = Ret l /\
  forall q, In q l <-> exists r, legal_result d p r /\ mirrored r q.
Proof.
  intros m N p d W O V. destruct (movegen_correct m d W O V) as (l & E & _ & H). eauto.
Qed.
(** A case: two x checkers on the bar, a double-5 roll, eleven results. *)
Example C01_position_rules_case : wf 15 ex_bar /\ ongoing 15 ex_bar /\ valid_dice (Double 5) /\
  match classic_positions Debug 15 ex_bar (Double 5) with
  | Ret l => length l = 11%nat | Panic _ => False end.
Proof.
  split; [apply ex_bar_wf|]. split; [apply ex_bar_wf|]. split; [cbv; lia|]. vm_compute. reflexivity.
Qed.

(** [Game::legal_positions] lists the same positions. *)
Theorem C01_game_legal_positions_exact : forall m g d,
  vwf (g_variant g) (g_position g) -> vongoing (g_position g) -> valid_dice d ->
  exists l, game_legal_positions m g d = Ret l /\
  forall w, In w l <-> vlegal d (g_position g) w.
Proof. intros m g d. apply C01_legal_positions_exact. Qed.

Example C01_opening_31 :
  match legal_positions Debug (start_position Backgammon) (Mixed 3 1) with
  | Ret l => length l = 16%nat | Panic _ => False end.
Proof. vm_compute. reflexivity. Qed.

(** ** C02 *)

Theorem C02_movegen_total : forall m k v d,
  vwf k v -> vongoing v -> valid_dice d ->
  exists l, legal_positions m v d = Ret l /\ l <> [].
Proof.
  intros m k v d W O V. destruct (legal_positions_correct m d W O V) as (l & E & Hn & _). eauto.
Qed.

Theorem C02_movegen_position_total : forall m N p d,
  wf N p -> ongoing N p -> valid_dice d ->
  exists l, classic_positions m N p d = Ret l /\ l <> [].
Proof.
  intros m N p d W O V. destruct (movegen_correct m d W O V) as (l & E & Hn & _). eauto.
Qed.
(** A case: two checkers on the bar and the entry point blocked; the list has one entry, in
    which nothing has moved. *)
Example C02_pass_case : wf 15 ex_bar /\ ongoing 15 ex_bar /\ valid_dice (Double 6) /\
  match classic_positions Release 15 ex_bar (Double 6) with
  | Ret [q] => mirrored ex_bar q | _ => False end.
Proof.
  split; [apply ex_bar_wf|]. split; [apply ex_bar_wf|]. split; [cbv; lia|].
  assert (E : exists q, classic_positions Release 15 ex_bar (Double 6) = Ret [q] /\ q = flipP ex_bar).
  { eexists. split; vm_compute; reflexivity. }
  destruct E as (q & -> & ->). apply flipP_mirrored. reflexivity.
Qed.

Theorem C02_debug_release_agree : forall k v d,
  vwf k v -> vongoing v -> valid_dice d ->
  legal_positions Debug v d = legal_positions Release v d.
Proof.
  intros k v d W O V. destruct (C02_movegen_total Debug d W O V) as (l & E & _).
  rewrite E. symmetry. apply (mono_classic v d). exact E.
Qed.
Example C02_agree_case : vwf Backgammon (tag Backgammon ex_bar) /\ vongoing (tag Backgammon ex_bar) /\
  valid_dice (Mixed 5 4) /\
  match legal_positions Debug (tag Backgammon ex_bar) (Mixed 5 4) with
  | Ret l => length l = 1%nat | Panic _ => False end.
Proof.
  split; [exists ex_bar; split; [reflexivity|apply ex_bar_wf]|].
  split; [exists Backgammon, ex_bar; split; [reflexivity|apply ex_bar_wf]|].
  split; [cbv; lia|]. vm_compute. reflexivity.
Qed.

(** ** C03 *)

Theorem C03_conservation : forall m k v d l w,
  vwf k v -> vongoing v -> valid_dice d ->
  legal_positions m v d = Ret l -> In w l ->
  vwf k w /\ vp_turn w = negb (vp_turn v) /\
  x_off (board_of w) = o_off (board_of v) /\
  x_off (board_of v) <= o_off (board_of w).
Proof.
  intros m k v d l w W O V E I. destruct (legal_positions_correct m d W O V) as (l' & E' & _ & H).
  rewrite E in E'. inversion E'; subst l'. apply H in I. clear H.
  destruct W as (p & -> & W). destruct I as (k' & p' & q & r & E1 & -> & L & M).
  apply tag_inj in E1. destruct E1; subst k' p'.
  pose proof (legal_result_wf W V L) as Wr. apply mirrored_iff in M; [|apply Wr]. subst q.
  destruct L as (ds & U & P & _).
  pose proof (plays_pips W (uses_valid V U) P) as (_ & _ & A & _ & B & C & _).
  rewrite !board_of_tag, !vp_turn_tag. split; [apply vwf_tag, flipP_wf; auto|].
  simpl. rewrite C. auto.
Qed.
(** A case: x enters both checkers from the bar, hitting with the 5. *)
Example C03_case : exists w,
  legal_positions Debug (tag Backgammon ex_bar) (Mixed 5 4) = Ret [w] /\
  vp_turn w = true /\ vp_turn (tag Backgammon ex_bar) = false /\
  x_checkers (board_of w) = 15 /\ o_checkers (board_of w) = 15 /\ pt (board_of w) 25 = 2.
Proof. eexists. split; [vm_compute; reflexivity|]. repeat split. Qed.

(** ** C05 *)

(** [flip] never panics on a well-formed position, mirrors it, keeps it well-formed, and
    flipping twice gives the position back. *)
Theorem C05_flip_mirror : forall m N p, wf N p ->
  exists q, flip m p = Ret q /\ mirrored p q /\ wf N q /\ flip m q = Ret p.
Proof.
  intros m N p W. exists (flipP p). split; [eapply flip_ret; eauto|].
  split; [apply flipP_mirrored, W|]. split; [apply flipP_wf; auto|].
  rewrite (flip_ret m (flipP_wf W)). rewrite flipP_involutive. reflexivity.
Qed.

(** [mirrored] determines the flipped position. *)
Theorem C05_mirror_unique : forall m N p q, wf N p -> mirrored p q -> flip m p = Ret q.
Proof.
  intros m N p q W M. apply mirrored_iff in M; [|apply W]. subst. eapply flip_ret; eauto.
Qed.
(** Any 26 numbers of 8 bits, whether or not they are a position: without a -128 the same holds in both builds. *)
Theorem C05_any_board : forall m p, length (pips p) = 26%nat -> Forall (fun v => -127 <= v <= 127) (pips p) ->
  exists q, flip m p = Ret q /\ mirrored p q /\ flip m q = Ret p.
Proof.
  assert (R : forall m p, Forall (fun v => -127 <= v <= 127) (pips p) -> flip m p = Ret (flipP p)).
  { intros m p F. unfold flip. rewrite mmap_ret with (g := Z.opp); [reflexivity|].
    intros v Iv. apply i8_ret. rewrite Forall_forall in F. specialize (F v Iv). lia. }
  intros m p L F. exists (flipP p). split; [apply R, F|]. split; [apply flipP_mirrored, L|]. rewrite R; [rewrite flipP_involutive; reflexivity|].
  unfold flipP. cbn [pips]. apply Forall_rev, Forall_map. eapply Forall_impl; [|exact F]. cbn beta. intros v V. lia.
Qed.
(** -128 has no negative in 8 bits: a debug build panics, a release build leaves it, and flipping twice is still the identity. *)
Theorem C05_lowest : forall p, length (pips p) = 26%nat -> Forall (fun v => -128 <= v <= 127) (pips p) ->
  (In (-128) (pips p) -> flip Debug p = Panic Overflow) /\
  exists q, flip Release p = Ret q /\ flip Release q = Ret p /\ turn q = negb (turn p) /\ x_off q = o_off p /\ o_off q = x_off p /\
    length (pips q) = 26%nat /\ forall i, (i <= 25)%nat ->
      pt q i = if pt p (25 - i) =? -128 then -128 else - pt p (25 - i).
Proof.
  set (neg := fun v => if v =? -128 then -128 else - v).
  assert (W : forall v, -128 <= v <= 127 -> i8 Release (- v) = Ret (neg v)).
  { intros v V. unfold neg. destruct (Z.eqb_spec v (-128)) as [->|N]; [reflexivity|]. apply i8_ret. lia. }
  assert (R : forall p, Forall (fun v => -128 <= v <= 127) (pips p) -> flip Release p =
    Ret {| turn := negb (turn p); pips := rev (map neg (pips p)); x_off := o_off p; o_off := x_off p |}).
  { intros p F. unfold flip. rewrite mmap_ret with (g := neg); [reflexivity|].
    intros v Iv. apply W. rewrite Forall_forall in F. exact (F v Iv). }
  assert (NN : forall v, -128 <= v <= 127 -> -128 <= neg v <= 127 /\ neg (neg v) = v).
  { intros v V. unfold neg. destruct (Z.eqb_spec v (-128)) as [->|N]; [split; [lia|reflexivity]|].
    destruct (Z.eqb_spec (- v) (-128)); lia. }
  intros p L F. split.
  - intros I. unfold flip. assert (M : mmap (fun v => i8 Debug (- v)) (pips p) = Panic Overflow); [|rewrite M; reflexivity].
    clear L. revert F I. induction (pips p) as [|v l IH]; intros F I; [destruct I|]. apply Forall_cons_iff in F. destruct F as (V & F). cbn [mmap].
    destruct (Z.eq_dec v (-128)) as [->|N]; [reflexivity|]. rewrite i8_ret by lia. rewrite bind_ret.
    destruct I as [I|I]; [congruence|]. rewrite IH by assumption. reflexivity.
  - eexists. split; [apply R, F|]. split.
    + rewrite R.
      * cbn [turn pips x_off o_off]. rewrite Bool.negb_involutive, map_rev, rev_involutive, map_map.
        replace (map (fun v => neg (neg v)) (pips p)) with (pips p); [destruct p; reflexivity|].
        clear - F NN. induction F as [|v l V F IH]; [reflexivity|]. cbn [map]. rewrite <- IH. f_equal. symmetry. apply NN, V.
      * cbn [pips]. apply Forall_rev, Forall_map. eapply Forall_impl; [|exact F]. intros v V. apply NN, V.
    + cbn [turn pips x_off o_off]. rewrite rev_length, map_length. repeat (split; [reflexivity|]). split; [exact L|].
      intros i Li. unfold pt. cbn [pips]. rewrite rev_nth by (rewrite map_length; lia). rewrite map_length, L.
      rewrite (nth_indep _ 0 (neg 0)) by (rewrite map_length; lia). rewrite map_nth. replace (26 - S i)%nat with (25 - i)%nat by lia. reflexivity.
Qed.
(** A case: flipping a position that is not its own mirror image. *)
Example C05_case : wf 15 ex_bar /\
  flip Debug ex_bar = Ret
    {| turn := true;
       pips := [-2; 0; 0; 0; 0; 1; 5; 0; 3; 0; 0; 0; -3; 5; 0; 0; 0; -3; 0; -4; 0; 0; 0; -3; 0; 1];
       x_off := 0; o_off := 0 |}.
Proof. split; [apply ex_bar_wf|]. vm_compute. reflexivity. Qed.

(** ** C22 *)

Theorem C22_single_move : forall m N p from die,
  wf N p -> (from <= 25)%nat -> valid_die die ->
  exists o, try_move_single_checker m p from die = Ret o /\
  match o with
  | Some q => may_move p die from /\ moved p die from q
  | None => ~ may_move p die from
  end.
Proof.
  intros m N p from die W F V. unfold try_move_single_checker.
  rewrite can_move_ret by (try apply W; unfold valid_die in V; lia). rewrite bind_ret.
  destruct (legalb_reflect W F V) as [M|M]; [|eauto].
  unfold clone_and_move_single_checker.
  rewrite (move_single_checker_ret m W V (may_move_pre M)), bind_ret.
  eexists; split; [reflexivity|]. split; auto.
  apply moved_iff; auto; [apply W|eapply may_move_range; eauto|apply V].
Qed.

Example C22_hit : may_move ex_bar 5 25 /\ hits ex_bar 5 25 /\ ~ may_move ex_bar 6 25.
Proof.
  split; [|split].
  - split; [lia|]. split; [vm_compute; reflexivity|]. split; [intros H; destruct (H eq_refl)|].
    split; [intros _; vm_compute; reflexivity|lia].
  - split; [lia|vm_compute; reflexivity].
  - intros (_ & _ & _ & H & _). specialize (H ltac:(lia)). vm_compute in H. discriminate.
Qed.

(** ** C43 *)

(** One single-checker move lowers the mover's pip count by the die; only when bearing off
    with a die larger than the point is it lowered by the point number instead.  The
    opponent's count rises exactly when a checker is hit, by the hit point's number. *)
Theorem C43_single_move_pips : forall N p die from q,
  wf N p -> valid_die die -> may_move p die from -> moved p die from q ->
  x_pips q = x_pips p - Z.of_nat (if (from <? die)%nat then from else die) /\
  (hits p die from -> o_pips q = o_pips p + Z.of_nat (from - die)) /\
  (~ hits p die from -> o_pips q = o_pips p).
Proof.
  intros N p die from q W V M Q. pose proof (may_move_range M) as R.
  apply moved_iff in Q; [|apply W|auto|apply V]. subst q.
  pose proof (may_move_pre M) as P.
  rewrite (x_pips_mv W V P), (o_pips_mv W V P). unfold hits. split.
  - destruct (Nat.ltb_spec from die); lia.
  - destruct (Nat.ltb_spec die from), (Z.eqb_spec (pt p (from - die)) (-1)); simpl; split; intros; lia.
Qed.

(** Over a whole listed play: [w] is the position after the play (seen by the opponent), so
    the mover's count is [o_pips] of it and the opponent's is [x_pips].  [hit_distance]
    adds up the numbers of the points on which the opponent had a blot before the play
    and has nothing afterwards. *)
Theorem C43_play_pips : forall m k v d l w,
  vwf k v -> vongoing v -> valid_dice d -> legal_positions m v d = Ret l -> In w l ->
  exists ds r, legal_play d (board_of v) ds r /\ mirrored r (board_of w) /\
  let used := dice_sum ds in
  x_pips (board_of v) - used <= o_pips (board_of w) <= x_pips (board_of v) /\
  (o_off (board_of w) = x_off (board_of v) -> o_pips (board_of w) = x_pips (board_of v) - used) /\
  x_pips (board_of w) = o_pips (board_of v) + hit_distance (board_of v) r.
Proof.
  intros m k v d l w W O V E I. destruct (legal_positions_correct m d W O V) as (l' & E' & _ & H).
  rewrite E in E'. inversion E'; subst l'. apply H in I. clear H.
  destruct W as (p & -> & W). destruct I as (k' & p' & q & r & E1 & -> & L & M).
  apply tag_inj in E1. destruct E1; subst k' p'. rewrite !board_of_tag.
  pose proof (legal_result_wf W V L) as Wr. pose proof M as M'.
  apply mirrored_iff in M; [|apply Wr]. subst q.
  destruct L as (ds & LP). exists ds, r. split; auto. split; auto.
  destruct LP as (U & P & _).
  pose proof (plays_pips W (uses_valid V U) P) as (A1 & A2 & A3 & A4 & A5 & A6 & A7 & A8).
  rewrite o_pips_flip, x_pips_flip by apply Wr. simpl. repeat split; auto; lia.
Qed.

(** The points where the opponent held at least two checkers keep them all. *)
Theorem C43_held_points_safe : forall m k v d l w i,
  vwf k v -> vongoing v -> valid_dice d -> legal_positions m v d = Ret l -> In w l ->
  (1 <= i <= 24)%nat -> pt (board_of v) i <= -2 ->
  pt (board_of w) (25 - i) = - pt (board_of v) i.
Proof.
  intros m k v d l w i W O V E I Hi H2.
  destruct (legal_positions_correct m d W O V) as (l' & E' & _ & H).
  rewrite E in E'. inversion E'; subst l'. apply H in I. clear H.
  destruct W as (p & -> & W). destruct I as (k' & p' & q & r & E1 & -> & L & M).
  apply tag_inj in E1. destruct E1; subst k' p'. rewrite !board_of_tag in *.
  pose proof (legal_result_wf W V L) as Wr.
  apply mirrored_iff in M; [|apply Wr]. subst q.
  destruct L as (ds & U & P & _).
  pose proof (plays_pips W (uses_valid V U) P) as (_ & _ & _ & _ & _ & _ & K & _).
  rewrite pt_flipP by (try apply Wr; lia). replace (25 - (25 - i))%nat with i by lia.
  destruct (K i Hi) as [K1 _]. destruct (K1 ltac:(lia)) as [->|[? ?]]; [reflexivity|lia].
Qed.
(** A case: entering with 5 and 4, the 5 hits o's blot on point 20, and o's five checkers on
    point 19 stay. The mover's count drops by 9, the opponent's rises by 20. *)
Example C43_case : exists w,
  legal_positions Debug (tag Backgammon ex_bar) (Mixed 5 4) = Ret [w] /\
  x_pips ex_bar = 143 /\ o_pips (board_of w) = 134 /\
  o_pips ex_bar = 149 /\ x_pips (board_of w) = 169 /\
  pt ex_bar 19 <= -2 /\ pt (board_of w) 6 = - pt ex_bar 19.
Proof.
  eexists. split; [vm_compute; reflexivity|]. repeat split; vm_compute; try reflexivity; discriminate.
Qed.

Print Assumptions C01_legal_positions_exact.
Print Assumptions C02_debug_release_agree.
Print Assumptions C43_play_pips.
