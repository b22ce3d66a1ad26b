(** Specification for property C86: games that can still be finished. *)
From Verif Require Export SpecGame Rules.
Open Scope Z_scope.

(** Some sequence of rolls and legal plays ends the game. *)
Definition can_be_finished (v : vpos) : Prop := exists n w, played n v w /\ ~ vongoing w.

(** In terms of the API: [w] is reached from [v] by choosing entries of the lists [legal_positions] returns for
    some rolls. *)
Inductive listed_line (m : mode) : vpos -> vpos -> Prop :=
| line_end v : listed_line m v v
| line_step v d l w u : valid_dice d -> legal_positions m v d = Ret l -> In w l -> listed_line m w u -> listed_line m v u.
(** Some choice of rolls and list entries leads to a position reported as over. *)
Definition can_end (m : mode) (v : vpos) : Prop :=
  exists w r, listed_line m v w /\ vp_game_state m w = Ret (GameOver r).

(** Checkers not yet borne off. *)
Definition x_left (k : variant) (v : vpos) : Z := checkers k - x_off (board_of v).
Definition o_left (k : variant) (v : vpos) : Z := checkers k - o_off (board_of v).
