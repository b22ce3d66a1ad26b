(** Specification for property C91: what must stay on the bar, and what [NoHitRules] makes of it. *)
From Verif Require Export SpecEpisode.
Open Scope Z_scope.

(** A die enters a checker from the bar if its entry point is not held by the opponent. *)
Definition enters_with (p : position) (a : nat) : bool := -2 <? pt p (25 - a).
(** How many of the dice rolled (four for a double) do. *)
Definition entering (d : dice) (p : position) : Z := Z.of_nat (List.length (filter (enters_with p) (pool d))).
(** The mover's checkers that must stay on the bar, and the opponent's there. *)
Definition must_stay (d : dice) (v : vpos) : Z := Z.max 0 (pt (board_of v) 25 - entering d (board_of v)).
Definition opponent_on_bar (v : vpos) : Z := - pt (board_of v) 0.
