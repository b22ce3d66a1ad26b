(** Specification for C97: the same board in two variants. *)
From Verif Require Export SpecEpisode SpecBoard.
Open Scope Z_scope.

(** The two positions, perhaps of different variants, show the same board. *)
Definition alike (v w : vpos) : Prop := same_board (board_of v) (board_of w).

(** Who won, and whether it is a win that counts once. *)
Definition mover_won (r : game_result) : Prop := r = WinNormal \/ r = WinGammon \/ r = WinBackgammon.
Definition counts_once (r : game_result) : Prop := r = WinNormal \/ r = LoseNormal.

(** A policy that decides by what it can see on the boards. *)
Definition sees_boards {S} (P Q : policy S) : Prop :=
  forall s v w d l l', alike v w -> Forall2 alike l l' -> P s v d l = Q s w d l'.
