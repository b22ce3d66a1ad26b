(** Property C88: every game can be finished, unless both sides are closed out.  Read with SpecFinish.v, SpecLuck.v,
    SpecDeadlock.v, SpecGame.v. *)
From Verif Require Import SpecLuck LuckFacts PropFinish PropDice PropPosition PropMoves PropGame GameFacts VariantFacts MoveFacts PropRace
  PropDeadlock FinishFacts PropLuck EndFacts EndFacts2 EndFacts3.
Unset Implicit Arguments.
Open Scope Q_scope.

Lemma line_finish m k v w : listed_line m v w -> vwf k v -> ~ vongoing w -> can_be_finished v.
Proof.
  intros L. induction L as [v|v d l w u V E I L IH]; intros W O; [exists 0%nat, v; split; [constructor|auto]|].
  destruct (over_dec W) as [Ov|Ov]; [|exists 0%nat, v; split; [constructor|auto]].
  destruct (legal_positions_correct m d W Ov V) as (l' & E' & _ & H). rewrite E in E'. inversion E'; subst l'.
  assert (Lw : vlegal d v w) by (apply H; auto). destruct (IH (vlegal_vwf W V Lw) O) as (n & x & P & Ox).
  exists (S n), x. split; auto. apply (played_S Ov V Lw P).
Qed.
Lemma over_not m k v r : vwf k v -> vp_game_state m v = Ret (GameOver r) -> ~ vongoing v.
Proof.
  intros W E O. assert (H : live k v) by (split; auto; apply (played_not_both k 0 v v); auto; constructor).
  destruct (live_state m k v H) as [(_ & X & _)|(X & _)]; [congruence|contradiction].
Qed.
Lemma line_vwf m k v w : listed_line m v w -> vwf k v -> (exists u, listed_line m v u /\ vwf k u /\ ~ vongoing u) \/ vwf k w.
Proof.
  intros L. induction L as [v|v d l w u V E I L IH]; intros W; [auto|].
  destruct (over_dec W) as [Ov|Ov]; [|left; exists v; split; [constructor|auto]].
  destruct (legal_positions_correct m d W Ov V) as (l' & E' & _ & H). rewrite E in E'. inversion E'; subst l'.
  assert (Lw : vlegal d v w) by (apply H; auto). destruct (IH (vlegal_vwf W V Lw)) as [(x & Lx & Wx & Ox)|X]; [left|right; auto].
  exists x. split; auto. eapply line_step; eauto.
Qed.
Lemma end_finish m k v : vwf k v -> can_end m v -> can_be_finished v.
Proof.
  intros W (w & r & L & E). destruct (line_vwf m k v w L W) as [(u & Lu & Wu & Ou)|Ww].
  - apply (line_finish m k v u); auto.
  - apply (line_finish m k v w); auto. eapply over_not; eauto.
Qed.

(** ** C88 *)

(** A position that is not over can be finished - by rolls and legal plays, or by choosing entries of the lists
    [legal_positions] returns - exactly if it is not one in which both players are on the bar against six held points. *)
Theorem C88_exact : forall m k v, vwf k v -> vongoing v ->
  (can_be_finished v <-> ~ SpecDeadlock.both_closed_out (board_of v)) /\
  (can_end m v <-> ~ SpecDeadlock.both_closed_out (board_of v)).
Proof.
  intros m k v W O.
  assert (A : can_be_finished v <-> ~ SpecDeadlock.both_closed_out (board_of v)).
  { split.
    - intros F C. apply (proj1 C86_bound_needed k v W O C F).
    - destruct W as (p & -> & W). rewrite board_of_tag. intros ND. apply (not_closed_fin k p W ND). }
  split; auto. split.
  - intros E. apply A. eapply end_finish; eauto.
  - intros ND. apply (finished_end m k v W O). apply A; auto.
Qed.

(** Games by chance. *)
Definition open_position (k : variant) (v : vpos) : Prop := live k v /\ ~ SpecDeadlock.both_closed_out (board_of v).
Lemma open_closed k : closed_set k (open_position k).
Proof.
  split; [intros v H; apply H|]. split.
  - intros v d w [Hv F] O V L. split; [eapply live_step; eauto|]. destruct Hv as [(p & -> & W) _].
    destruct (vlegal_wf _ W V L) as (r & -> & (ds & Lp) & Wr). rewrite board_of_tag in *.
    apply (not_closed_step k p d ds r); auto.
  - intros v [[W _] F] O. apply (C88_exact Debug k v W O); auto.
Qed.
Lemma open_of k v : vwf k v -> vongoing v -> ~ SpecDeadlock.both_closed_out (board_of v) -> open_position k v.
Proof. intros W O F. split; auto. split; auto. apply (played_not_both k 0 v v); auto. constructor. Qed.

(** They end with probability one exactly from the same positions; from the others they never end. *)
Theorem C88_chance : forall m k v, vwf k v -> vongoing v ->
  (surely_ends m v <-> ~ SpecDeadlock.both_closed_out (board_of v)) /\
  (SpecDeadlock.both_closed_out (board_of v) <-> forall n, unfinished m n v == 1).
Proof.
  intros m k v W O.
  assert (A : surely_ends m v <-> ~ SpecDeadlock.both_closed_out (board_of v)).
  { split.
    - intros S C. destruct (S (1 # 2)) as (n & Hn); [reflexivity|]. rewrite (C87_closed_out m k v W O C n) in Hn. discriminate Hn.
    - intros ND eps E. destruct (set_vanishes m k _ eps (open_closed k) E) as (n & Hn). exists n. apply Hn; auto. apply open_of; auto. }
  split; auto. split; [intros C n; apply (C87_closed_out m k); auto|].
  intros U. assert (D : SpecDeadlock.both_closed_out (board_of v) \/ ~ SpecDeadlock.both_closed_out (board_of v)).
  { unfold SpecDeadlock.both_closed_out. set (p := board_of v).
    assert (X : forall (f : nat -> Prop) a n, (forall i, f i \/ ~ f i) -> (forall i, (a <= i <= n)%nat -> f i) \/ ~ (forall i, (a <= i <= n)%nat -> f i)).
    { intros f a n Df. induction n as [|n IH].
      - destruct (Df 0%nat) as [Y|Y]; [left; intros i I; replace i with 0%nat by lia; auto|].
        destruct (Nat.eq_dec a 0) as [->|]; [right; intros Z; apply Y, Z; lia|left; intros; lia].
      - destruct IH as [IH|IH].
        + destruct (Df (S n)) as [Y|Y]; [left; intros i I; destruct (Nat.eq_dec i (S n)) as [->|]; [auto|apply IH; lia]|].
          destruct (le_lt_dec a (S n)); [right; intros Z; apply Y, Z; lia|left; intros; lia].
        + right. intros Z. apply IH. intros i I. apply Z. lia. }
    assert (D1 : (0 < pt p 25 \/ ~ 0 < pt p 25)%Z) by lia. assert (D2 : (pt p 0 < 0 \/ ~ pt p 0 < 0)%Z) by lia.
    destruct (X (fun i => (pt p i <= -2)%Z) 19%nat 24%nat) as [Y|Y]; [intros; lia| |tauto].
    destruct (X (fun i => (2 <= pt p i)%Z) 1%nat 6%nat) as [Z|Z]; [intros; lia|tauto|tauto]. }
  destruct D as [D|D]; auto. destruct (proj2 A D (1 # 2)) as (n & Hn); [reflexivity|]. rewrite (U n) in Hn. discriminate Hn.
Qed.

(** The probability of not being over tends to zero at the same speed from all of them, and the expected number of
    turns is bounded for the whole variant. *)
Theorem C88_rate : forall m k,
  (forall eps, 0 < eps -> exists n, forall i v, (n <= i)%nat -> vwf k v -> vongoing v ->
     ~ SpecDeadlock.both_closed_out (board_of v) -> unfinished m i v < eps) /\
  exists M, forall n v, vwf k v -> vongoing v -> ~ SpecDeadlock.both_closed_out (board_of v) -> expected_turns m n v <= M.
Proof.
  intros m k. split.
  - intros eps E. destruct (set_vanishes m k _ eps (open_closed k) E) as (n & Hn). exists n. intros. apply Hn; auto. apply open_of; auto.
  - destruct (set_expected m k _ (open_closed k)) as (M & HM). exists M. intros. apply HM. apply open_of; auto.
Qed.

(** So every game played from a starting position can be finished at any time, and ends with probability one when
    it is left to chance from there. *)
Theorem C88_from_start : forall m k n v, played n (start_position k) v -> vongoing v ->
  can_be_finished v /\ can_end m v /\ surely_ends m v.
Proof.
  intros m k n v P O. assert (W : vwf k v) by (eapply played_vwf; eauto; apply start_wf).
  pose proof (C76_never_closed_out k n v P) as ND. destruct (C88_exact m k v W O) as [A B].
  split; [apply A; auto|]. split; [apply B; auto|]. apply (C88_chance m k v W O); auto.
Qed.

(** With at most twelve checkers a side there is no exception. *)
Theorem C88_small : forall m k v, (checkers k <= 12)%Z -> vwf k v -> vongoing v -> can_be_finished v /\ can_end m v /\ surely_ends m v.
Proof.
  intros m k v K W O. assert (ND : ~ SpecDeadlock.both_closed_out (board_of v)).
  { destruct W as (p & -> & W). rewrite board_of_tag. intros (B & H & B' & H').
    pose proof (o_some (checkers k) p [0; 19; 20; 21; 22; 23; 24]%nat W) as C. pose proof (wf_off_bounds W) as OB.
    assert (C' : (sumZ (map (oc p) [0; 19; 20; 21; 22; 23; 24]%nat) <= checkers k - o_off p)%Z).
    { apply C; [repeat (apply NoDup_cons; [cbn [In]; lia|]); apply NoDup_nil|cbn [In]; lia]. }
    unfold sumZ, oc in C'. cbn [map fold_right] in C'.
    pose proof (H 19%nat ltac:(lia)). pose proof (H 20%nat ltac:(lia)). pose proof (H 21%nat ltac:(lia)).
    pose proof (H 22%nat ltac:(lia)). pose proof (H 23%nat ltac:(lia)). pose proof (H 24%nat ltac:(lia)). lia. }
  destruct (C88_exact m k v W O) as [A B]. split; [apply A; auto|]. split; [apply B; auto|]. apply (C88_chance m k v W O); auto.
Qed.

(** Concrete cases: a blockaded position that is not closed out - both sides on the bar, x closed out by a full
    home board, o able to enter with a five only - and the starting positions. *)
Definition ex_blockade : position :=
  {| turn := true;
     pips := [-3; 2; 3; 3; 3; 0; 3; 0; 0; 0; 0; 0; 0; 0; 0; 0; 0; 0; 0; -2; -2; -2; -2; -2; -2; 1]%Z; x_off := 0; o_off := 0 |}.
Example C88_ex : vwf Backgammon (VBackgammon ex_blockade) /\ vongoing (VBackgammon ex_blockade) /\
  ~ SpecDeadlock.both_closed_out (board_of (VBackgammon ex_blockade)) /\ SpecDeadlock.cannot_move (VBackgammon ex_blockade) /\
  can_end Debug (VBackgammon ex_blockade) /\
  forall k, played 0 (start_position k) (start_position k) /\ vongoing (start_position k).
Proof.
  assert (W : wf (checkers Backgammon) ex_blockade) by solve_wf.
  assert (Wv : vwf Backgammon (VBackgammon ex_blockade)) by (exists ex_blockade; split; [reflexivity|exact W]).
  assert (O : vongoing (VBackgammon ex_blockade)) by (exists Backgammon, ex_blockade; split; [reflexivity|split; reflexivity]).
  assert (ND : ~ SpecDeadlock.both_closed_out (board_of (VBackgammon ex_blockade))).
  { intros (_ & _ & _ & H). specialize (H 5%nat ltac:(lia)). cbv in H. apply H. reflexivity. }
  split; auto. split; auto. split; auto. split; [|split].
  - intros d w V L. change (VBackgammon ex_blockade) with (tag Backgammon ex_blockade) in L.
    destruct (vlegal_wf _ W V L) as (r & -> & (ds & U & P & _) & Wr).
    assert (r = ex_blockade).
    { pose proof (uses_valid V U) as Vd. destruct ds as [|a ds]; [inversion P; auto|]. inversion_clear Vd as [|? ? Va _].
      apply (plays_cons_iff ds r W Va) in P. destruct P as (f & M & _).
      assert (f = 25%nat) by (apply (may_bar (p := ex_blockade) (die := a)); [reflexivity|auto]). subst f.
      destruct M as (_ & _ & _ & Mo & _). unfold valid_die in Va. specialize (Mo ltac:(lia)). exfalso.
      assert (Ea : (a = 1 \/ a = 2 \/ a = 3 \/ a = 4 \/ a = 5 \/ a = 6)%nat) by lia.
      destruct Ea as [->|[->|[->|[->|[->| ->]]]]]; cbv in Mo; discriminate Mo. }
    subst r. rewrite board_of_tag. apply flipP_mirrored. apply W.
  - apply (C88_exact Debug Backgammon _ Wv O); auto.
  - intros k. split; [constructor|apply start_wf].
Qed.
