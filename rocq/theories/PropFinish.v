(** Property C86: games with few checkers can always be finished.  Read with SpecFinish.v, SpecGame.v. *)
From Verif Require Import SpecFinish FinishFacts PropPosition PropMoves PropGame GameFacts VariantFacts PropRace PropDeadlock.
From Coq Require Import Permutation.
Unset Implicit Arguments.
Open Scope Z_scope.

Lemma legal_v k p d ds r : wf (checkers k) p -> valid_dice d -> legal_play d p ds r ->
  wf (checkers k) r /\ vlegal d (tag k p) (tag k (flipP r)).
Proof.
  intros W V L. assert (R : legal_result d p r) by (exists ds; exact L). pose proof (legal_result_wf W V R) as Wr.
  split; [exact Wr|]. exists k, p, (flipP r), r. split; [auto|]. split; [auto|]. split; [auto|]. apply flipP_mirrored, Wr.
Qed.
Lemma legal_offs N p d ds r : wf N p -> valid_dice d -> legal_play d p ds r ->
  x_off p <= x_off r /\ o_off r = o_off p /\ wf N r.
Proof.
  intros W V L. assert (R : legal_result d p r) by (exists ds; exact L). pose proof (legal_result_wf W V R) as Wr.
  destruct L as (U & P & _). assert (Fv : Forall valid_die ds) by (eapply uses_valid; eauto).
  destruct (plays_pips W Fv P) as (_ & _ & A & _ & B & _). auto.
Qed.

Lemma over_dec' k p : vongoing (tag k p) \/ ~ vongoing (tag k p).
Proof. rewrite vongoing_tag. unfold ongoing. lia. Qed.

(** The mover is the side with few checkers: the checkers left, the pips of that side and the pips of the
    other side decrease in this order of importance. *)
Lemma finish_mover k : forall (R P Q : nat) p, wf (checkers k) p -> ongoing (checkers k) p ->
  checkers k - x_off p <= 4 ->
  2 * checkers k - x_off p - o_off p <= Z.of_nat R -> x_pips p <= Z.of_nat P -> o_pips p <= Z.of_nat Q -> can_be_finished (tag k p).
Proof.
  induction R as [|R IHR]; [intros P Q p W (X & O) _ M _ _; pose proof (wf_off_bounds W); lia|].
  assert (Step : forall P p, wf (checkers k) p -> ongoing (checkers k) p -> checkers k - x_off p <= 4 ->
    2 * checkers k - x_off p - o_off p <= Z.of_nat (S R) -> x_pips p <= P ->
    (forall q, wf (checkers k) q -> ongoing (checkers k) q -> checkers k - x_off q <= 4 ->
       2 * checkers k - x_off q - o_off q <= Z.of_nat (S R) ->
       x_pips q < P \/ x_pips q <= P /\ o_pips q < o_pips p -> can_be_finished (tag k q)) ->
    can_be_finished (tag k p)).
  { intros P p W On X4 MR MP IH. destruct On as (Xo & Oo).
    destruct (moving_roll _ p W) as (d & ds & r & V & L & Less).
    destruct (legal_v k p d ds r W V L) as (Wr & Lv). destruct (legal_offs _ p d ds r W V L) as (Ax & Ao & _).
    set (q := flipP r) in *. pose proof (flipP_wf Wr) as Wq. fold q in Wq.
    destruct (over_dec' k q) as [Oq|Oq].
    2: { exists 1%nat, (tag k q). split; [|exact Oq]. eapply played_S; [apply vongoing_tag; split; auto|exact V|exact Lv|constructor]. }
    apply vongoing_tag in Oq. destruct Oq as (Xq & Yq).
    assert (E3 : x_off q = o_off r) by reflexivity. assert (E4 : o_off q = x_off r) by reflexivity.
    destruct (quiet_roll _ q Wq Xq) as (d2 & ds2 & r2 & V2 & L2 & Q1 & Q2); [lia|].
    destruct (legal_v k q d2 ds2 r2 Wq V2 L2) as (Wr2 & Lv2). destruct (legal_offs _ q d2 ds2 r2 Wq V2 L2) as (Bx & Bo & _).
    set (q2 := flipP r2) in *. pose proof (flipP_wf Wr2) as Wq2. fold q2 in Wq2.
    assert (S2 : forall n w, played n (tag k q2) w -> played (S (S n)) (tag k p) w).
    { intros n w Pw. eapply (@played_S (S n)); [apply vongoing_tag; split; auto|exact V|exact Lv|].
      eapply (@played_S n); [apply vongoing_tag; split; auto|exact V2|exact Lv2|exact Pw]. }
    destruct (over_dec' k q2) as [Oq2|Oq2]; [|exists 2%nat, (tag k q2); split; [apply S2; constructor|exact Oq2]].
    apply vongoing_tag in Oq2.
    assert (F : can_be_finished (tag k q2)).
    { assert (E1 : x_off q2 = o_off r2) by reflexivity. assert (E2 : o_off q2 = x_off r2) by reflexivity.
      assert (E5 : o_pips q = x_pips r) by (apply o_pips_flip, Wr). assert (E6 : x_pips q2 = o_pips r2) by (apply x_pips_flip, Wr2).
      assert (E7 : o_pips q2 = x_pips r2) by (apply o_pips_flip, Wr2). assert (E8 : x_pips q = o_pips r) by (apply x_pips_flip, Wr).
      destruct (Z_le_gt_dec (2 * checkers k - x_off q2 - o_off q2) (Z.of_nat R)) as [G|G].
      - pose proof (x_pips_nonneg q2). pose proof (o_pips_nonneg q2).
        apply (IHR (Z.to_nat (x_pips q2)) (Z.to_nat (o_pips q2)) q2); [exact Wq2|exact Oq2|lia|lia|lia|lia].
      - apply (IH q2); [exact Wq2|exact Oq2|lia|lia|].
        destruct Less as [Less|Er]; [left; lia|]. right. rewrite Er in *. lia. }
    destruct F as (n & w & Pw & Ow). exists (S (S n)), w. split; [apply S2, Pw|exact Ow]. }
  induction P as [|P IHP]; induction Q as [|Q IHQ]; intros p W On X4 MR MP MQ.
  - apply (Step 0 p W On X4 MR); [lia|]. intros q _ _ _ _ [G|(_ & G)].
    + pose proof (x_pips_nonneg q). lia.
    + pose proof (o_pips_nonneg q). lia.
  - apply (Step 0 p W On X4 MR); [lia|]. intros q A B C D [G|(G1 & G2)].
    + pose proof (x_pips_nonneg q). lia.
    + apply (IHQ q); auto; lia.
  - apply (Step (Z.of_nat (S P)) p W On X4 MR); [lia|]. intros q A B C D [G|(_ & G)].
    + pose proof (o_pips_nonneg q). apply (IHP (Z.to_nat (o_pips q)) q); auto; lia.
    + pose proof (o_pips_nonneg q). lia.
  - apply (Step (Z.of_nat (S P)) p W On X4 MR); [lia|]. intros q A B C D [G|(G1 & G2)].
    + pose proof (o_pips_nonneg q). apply (IHP (Z.to_nat (o_pips q)) q); auto; lia.
    + apply (IHQ q); auto; lia.
Qed.

(** From plays to listed positions. *)
Lemma played_line m k n v w : vwf k v -> played n v w -> listed_line m v w.
Proof.
  intros W H. revert W. induction H as [v|n v w u d O V L H IH]; intros W; [constructor|].
  destruct (legal_positions_correct m d W O V) as (l & E & _ & Hl).
  eapply line_step; [exact V|exact E|apply Hl, L|]. apply IH, (vlegal_vwf W V L).
Qed.
Lemma finished_end m k v : vwf k v -> vongoing v -> can_be_finished v -> can_end m v.
Proof.
  intros W O (n & w & P & Ow). assert (Ww : vwf k w) by (eapply played_vwf; eauto).
  destruct (over_state m k w Ww (played_not_both k n v w W O P) Ow) as (r & E).
  exists w, r. split; [eapply played_line; eauto|exact E].
Qed.

(** ** C86 *)

Lemma few_checkers : forall k v, vwf k v -> vongoing v ->
  x_left k v <= 4 \/ o_left k v <= 4 -> can_be_finished v.
Proof.
  intros k v (p & -> & W) O H. unfold x_left, o_left in H. rewrite board_of_tag in H.
  pose proof O as On. apply vongoing_tag in On.
  assert (Mover : forall q, wf (checkers k) q -> ongoing (checkers k) q -> checkers k - x_off q <= 4 -> can_be_finished (tag k q)).
  { intros q Wq Oq Xq. pose proof (x_pips_nonneg q). pose proof (o_pips_nonneg q). pose proof (wf_off_bounds Wq).
    apply (finish_mover k (Z.to_nat (2 * checkers k)) (Z.to_nat (x_pips q)) (Z.to_nat (o_pips q)) q); [exact Wq|exact Oq|lia|lia|lia|lia]. }
  destruct H as [A|A]; [apply Mover; auto|].
  destruct On as (Xo & Oo). destruct (quiet_roll _ p W Xo A) as (d & ds & r & V & L & _).
  destruct (legal_v k p d ds r W V L) as (Wr & Lv). destruct (legal_offs _ p d ds r W V L) as (Ax & Ao & _).
  pose proof (flipP_wf Wr) as Wq. assert (E1 : x_off (flipP r) = o_off r) by reflexivity.
  destruct (over_dec' k (flipP r)) as [Oq|Oq].
  - assert (F : can_be_finished (tag k (flipP r))) by (apply Mover; [exact Wq|apply vongoing_tag, Oq|lia]).
    destruct F as (n & w & Pw & Ow). exists (S n), w. split; [|exact Ow]. eapply played_S; eauto.
  - exists 1%nat, (tag k (flipP r)). split; [|exact Oq]. eapply played_S; eauto. constructor.
Qed.

(** As long as one side has at most four checkers left, there are rolls and legal plays that end the
    game - whatever the position, in every variant and build. *)
Theorem C86_few_checkers : forall m k v, vwf k v -> vongoing v ->
  x_left k v <= 4 \/ o_left k v <= 4 -> can_be_finished v /\ can_end m v.
Proof.
  intros m k v W O H. pose proof (few_checkers k v W O H) as F. split; [exact F|]. eapply finished_end; eauto.
Qed.

(** So every game with two, three or four checkers a side can be finished at any time. *)
Theorem C86_hypergammon : forall m k v, k = Hypergammon2 \/ k = Hypergammon \/ k = Hypergammon4 ->
  vwf k v -> vongoing v -> can_be_finished v /\ can_end m v.
Proof.
  intros m k v K W O. apply (C86_few_checkers m k v W O). left. unfold x_left. destruct W as (p & -> & W).
  rewrite board_of_tag. pose proof (wf_off_bounds W). destruct K as [->|[->| ->]]; cbn [checkers] in *; lia.
Qed.

(** Concrete cases meeting the hypotheses: the Hypergammon starting position, and a backgammon end game where the mover
    has one checker on the bar and one to bear off against fifteen on the board, five points closed. *)
Definition ex_ending : position :=
  {| turn := true;
     pips := [0; 1; 0; 0; 0; 0; 0; 0; 0; 0; 0; 0; 0; 0; 0; 0; 0; 0; 0; -3; -3; -3; -3; -3; 0; 1];
     x_off := 13; o_off := 0 |}.
Example C86_ex : (vwf Hypergammon (start_position Hypergammon) /\ vongoing (start_position Hypergammon) /\
    can_end Debug (start_position Hypergammon)) /\
  (vwf Backgammon (VBackgammon ex_ending) /\ vongoing (VBackgammon ex_ending) /\
   x_left Backgammon (VBackgammon ex_ending) = 2 /\ o_left Backgammon (VBackgammon ex_ending) = 15).
Proof.
  split.
  - destruct (start_wf Hypergammon) as (W & O). split; [exact W|]. split; [exact O|].
    apply (C86_hypergammon Debug Hypergammon _ (or_intror (or_introl eq_refl)) W O).
  - split; [exists ex_ending; split; [reflexivity|solve_wf]|].
    split; [exists Backgammon, ex_ending; split; [reflexivity|vm_compute; auto]|]. vm_compute. auto.
Qed.

(** Some bound is needed: from a position in which both sides are closed out on the bar nothing ends the game. *)
Theorem C86_bound_needed : (forall k v, vwf k v -> vongoing v -> SpecDeadlock.both_closed_out (board_of v) -> ~ can_be_finished v) /\
  vwf Backgammon ex_deadlock /\ vongoing ex_deadlock /\ SpecDeadlock.both_closed_out (board_of ex_deadlock).
Proof.
  split; [|exact C76_ex]. intros k v W O B (n & w & P & Ow).
  assert (Ww : vwf k w) by (eapply played_vwf; eauto).
  destruct (C76_deadlock_lasts k v n w W B P) as (_ & M).
  destruct W as (p & -> & W). destruct Ww as (q & -> & Wq). rewrite !board_of_tag in *. apply vongoing_tag in O.
  apply Ow, vongoing_tag. destruct O as (A & C). destruct (Nat.odd n).
  - destruct M as (M1 & M2 & M3 & M4). unfold ongoing. lia.
  - subst q. split; auto.
Qed.
