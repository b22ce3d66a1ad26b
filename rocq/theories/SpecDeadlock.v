(** Independent specification for C76: positions in which nobody can ever move again. *)
From Verif Require Export SpecGame.
Open Scope Z_scope.

(** Whatever is rolled, every legal play of the player to move leaves the board as it is (the turn
    passes). *)
Definition cannot_move (v : vpos) : Prop :=
  forall d w, valid_dice d -> vlegal d v w -> mirrored (board_of v) (board_of w).

(** Neither the player to move nor then the opponent can move. *)
Definition deadlock (v : vpos) : Prop :=
  cannot_move v /\ forall d w, valid_dice d -> vlegal d v w -> cannot_move w.

(** Both players have a checker on the bar in front of a home board whose six points are all held by the
    other player. *)
Definition both_closed_out (p : position) : Prop :=
  0 < pt p 25 /\ (forall i, (19 <= i <= 24)%nat -> pt p i <= -2) /\
  pt p 0 < 0 /\ (forall i, (1 <= i <= 6)%nat -> 2 <= pt p i).
