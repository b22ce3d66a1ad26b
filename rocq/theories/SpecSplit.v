(** Specification for property C95: a race is two separate bear-offs. *)
From Verif Require Export SpecVariants SpecGame SpecDice Rules.
Open Scope Z_scope.

(** How many checkers the side to move, and the other side, has on point [i] (counted by the side to
    move; 25 is its bar and 0 the other side's). *)
Definition mine (v : vpos) (i : nat) : Z := Z.max 0 (pt (board_of v) i).
Definition theirs (v : vpos) (i : nat) : Z := Z.max 0 (- pt (board_of v) i).

(** The side to move has the same checkers in [v] and [w]; nothing is said about the other side. *)
Definition same_mine (v w : vpos) : Prop := forall i, (i <= 25)%nat -> mine v i = mine w i.

(** Some turns of the side to move, the rolls and its choices given as list indices; the other side's
    rolls and plays in between are arbitrary. *)
Inductive turns (m : mode) : list (dice * nat) -> vpos -> vpos -> Prop :=
| turns_0 v : turns m [] v v
| turns_1 d j s v l a e l' b w :
    vongoing v -> valid_dice d -> legal_positions m v d = Ret l -> nth_error l j = Some a ->
    vongoing a -> valid_dice e -> legal_positions m a e = Ret l' -> In b l' -> turns m s b w ->
    turns m ((d, j) :: s) v w.
