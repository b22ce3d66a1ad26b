(** Independent specification: how many choices a turn offers. *)
From Verif Require Export SpecRules SpecVariants SpecDice SpecPerft.
Open Scope Z_scope.

(** The most results a roll can have with N checkers a side.  Two different dice: two ways (which die first)
    to choose a first checker and a second one not in front of it.  A double: the ways to spread four steps
    over N checkers, (N+3 choose 4). *)
Definition most (N : Z) (d : dice) : Z :=
  match d with
  | Mixed _ _ => N * (N + 1)
  | Double _ => N * (N + 1) * (N + 2) * (N + 3) / 24
  end.

(** The most lines one turn can add: the sum over the 21 rolls, or over the 36 throws. *)
Definition most_turn (weighted : bool) (N : Z) : Z :=
  (if weighted then 30 else 15) * (N * (N + 1)) + 6 * (N * (N + 1) * (N + 2) * (N + 3) / 24).

(** The turns that can be counted in 128 bits, for the numbers of checkers in use. *)
Definition safe_depth (k : variant) : nat :=
  match k with
  | Backgammon | Nackgammon | Longgammon => 8
  | Hypergammon5 => 12 | Hypergammon4 => 13 | Hypergammon => 14 | Hypergammon2 => 16
  end.
