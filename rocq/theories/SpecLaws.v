(** Specification for C82: what a single turn can and cannot change.  Everything is said
    about the position before the turn and the position handed to the opponent, on what
    [pip(i)], [x_off()], [o_off()] show; no play, die or order of moves is mentioned. *)
From Verif Require Export SpecRules SpecVariants.
Unset Implicit Arguments.
Open Scope Z_scope.

(** [q] is the position handed over: it is seen by the opponent.  The mover's view of point
    [i] in it: positive for the mover's own checkers, negative for the opponent's. *)
Definition later (q : position) (i : nat) : Z := - pt q (25 - i).

(** How many checkers a turn with this roll can move. *)
Definition moves_in (d : dice) : Z := match d with Double _ => 4 | Mixed _ _ => 2 end.

(** A die of the roll. *)
Definition die_of (d : dice) (a : nat) : Prop :=
  match d with Double b => a = b | Mixed b s => a = b \/ a = s end.

(** The mover's checkers on the points from [j] up (his bar, point 25, included). *)
Definition behind (f : nat -> Z) (j : nat) : Z :=
  sumZ (map (fun i => Z.max 0 (f i)) (seq j (26 - j))).

(** The points on which the opponent had a single checker that is no longer there. *)
Definition blots_hit (p q : position) : Z :=
  Z.of_nat (length (filter (fun i => (pt p i =? -1) && (0 <=? later q i)) (seq 1 24))).
