(** Witness games for property C90, as rolls and indices into the lists [legal_positions] returns; found by a
    search outside Coq, checked in PropHowLong.v. *)
From Verif Require Export SpecHowLong.
Open Scope nat_scope.
Notation line := (list (dice * nat)).

(** A shortest game that may open with a double. *)
Definition quick (k : variant) : line :=
  match k with
  | Backgammon => [(Mixed 6 4, 5); (Double 4, 46); (Double 6, 11); (Double 4, 29); (Double 6, 8); (Mixed 2 1, 4); (Double 6, 0); (Double 1, 21); (Double 6, 0); (Mixed 2 1, 0); (Double 6, 0); (Double 1, 0); (Double 6, 0); (Mixed 6 3, 0); (Double 6, 0); (Mixed 2 1, 33); (Double 6, 0)]
  | Nackgammon => [(Mixed 5 4, 6); (Double 5, 8); (Double 6, 35); (Double 4, 6); (Double 6, 22); (Double 4, 10); (Double 6, 0); (Mixed 2 1, 5); (Double 6, 2); (Mixed 4 3, 4); (Double 6, 1); (Mixed 6 3, 0); (Double 6, 0); (Double 5, 0); (Double 6, 0); (Double 1, 0); (Double 6, 0); (Mixed 6 3, 3); (Double 6, 0)]
  | Longgammon => [(Double 6, 1); (Double 1, 4); (Double 6, 4); (Mixed 4 3, 4); (Double 6, 3); (Mixed 4 3, 0); (Double 6, 3); (Mixed 6 3, 13); (Double 6, 6); (Mixed 4 3, 3); (Double 6, 7); (Double 5, 23); (Double 6, 1); (Mixed 2 1, 0); (Double 6, 8); (Mixed 6 3, 26); (Double 6, 0); (Double 6, 58); (Double 6, 1); (Double 6, 95); (Double 6, 0); (Mixed 4 3, 9); (Double 6, 0); (Double 6, 5); (Double 6, 0); (Mixed 2 1, 19); (Double 6, 0); (Double 6, 0); (Double 6, 0)]
  | Hypergammon => [(Double 6, 8); (Double 1, 6); (Double 6, 1); (Mixed 4 3, 2); (Double 6, 0)]
  | Hypergammon2 => [(Double 6, 0); (Double 1, 2); (Double 6, 0)]
  | Hypergammon4 => [(Double 6, 19); (Double 1, 0); (Double 6, 14); (Mixed 3 1, 5); (Double 6, 0); (Double 6, 7); (Double 6, 0)]
  | Hypergammon5 => [(Double 6, 18); (Double 5, 18); (Double 6, 12); (Mixed 6 3, 7); (Double 6, 4); (Mixed 6 5, 16); (Double 6, 0); (Mixed 4 3, 15); (Double 6, 0)]
  end.

(** First plies of a game that lead to a position from which two plies lead back to it ... *)
Definition opening (k : variant) : line :=
  match k with
  | Backgammon => [(Mixed 4 2, 15); (Mixed 6 3, 12)]
  | Nackgammon => [(Mixed 5 1, 3); (Mixed 6 3, 14)]
  | Longgammon => [(Mixed 5 2, 1); (Mixed 4 1, 0); (Double 6, 0)]
  | Hypergammon => [(Mixed 5 4, 1); (Double 6, 6)]
  | Hypergammon2 => [(Mixed 3 2, 0); (Double 6, 0)]
  | Hypergammon4 => [(Mixed 2 1, 9); (Double 4, 0)]
  | Hypergammon5 => [(Mixed 5 1, 5); (Double 5, 5)]
  end.

(** ... these plies ... *)
Definition round (k : variant) : line :=
  match k with
  | Backgammon => [(Double 5, 18); (Double 5, 23)]
  | Nackgammon => [(Double 5, 8); (Double 5, 13)]
  | Longgammon => [(Double 5, 0); (Double 5, 1)]
  | Hypergammon => [(Double 5, 1); (Double 5, 1)]
  | Hypergammon2 => [(Double 5, 0); (Double 5, 1)]
  | Hypergammon4 => [(Double 5, 0); (Double 5, 0)]
  | Hypergammon5 => [(Double 5, 1); (Double 5, 1)]
  end.

(** ... and from there to the end of a game of an even number of plies ... *)
Definition finish0 (k : variant) : line :=
  match k with
  | Backgammon => [(Double 6, 0); (Double 6, 11); (Mixed 3 1, 3); (Double 6, 5); (Double 4, 23); (Double 6, 2); (Mixed 3 1, 0); (Double 6, 1); (Double 4, 8); (Double 6, 0); (Mixed 3 2, 9); (Double 6, 0); (Mixed 4 3, 18); (Double 6, 0); (Mixed 2 1, 40); (Double 6, 0)]
  | Nackgammon => [(Double 4, 5); (Double 6, 14); (Mixed 3 1, 8); (Double 6, 5); (Mixed 2 1, 15); (Double 6, 5); (Mixed 6 5, 0); (Double 5, 0); (Mixed 2 1, 3); (Double 6, 0); (Mixed 3 2, 17); (Double 6, 0); (Mixed 4 3, 3); (Double 6, 0); (Mixed 6 3, 39); (Double 6, 0); (Double 5, 141); (Double 6, 0)]
  | Longgammon => [(Double 6, 8); (Mixed 4 3, 1); (Double 6, 16); (Double 4, 5); (Double 6, 18); (Double 4, 5); (Double 6, 3); (Double 4, 16); (Double 6, 7); (Double 4, 21); (Double 6, 12); (Double 1, 15); (Double 6, 6); (Double 4, 5); (Double 6, 3); (Mixed 2 1, 25); (Mixed 3 2, 6); (Double 4, 18); (Double 6, 1); (Mixed 3 1, 11); (Double 6, 0); (Mixed 2 1, 6); (Double 6, 0); (Mixed 6 5, 1); (Double 6, 0); (Mixed 2 1, 2); (Double 6, 0); (Mixed 3 2, 27); (Double 6, 0); (Mixed 6 5, 21); (Double 6, 0)]
  | Hypergammon => [(Mixed 3 2, 3); (Double 6, 0); (Double 5, 3); (Double 6, 0)]
  | Hypergammon2 => [(Mixed 3 2, 1); (Double 6, 0)]
  | Hypergammon4 => [(Mixed 3 2, 1); (Double 6, 4); (Mixed 4 3, 3); (Double 6, 1); (Mixed 4 3, 0); (Double 6, 0); (Mixed 4 3, 3); (Double 6, 0)]
  | Hypergammon5 => [(Double 1, 1); (Double 6, 20); (Mixed 6 5, 2); (Double 6, 4); (Mixed 6 3, 5); (Double 6, 0); (Double 4, 6); (Double 6, 0)]
  end.

(** ... and of an odd number. *)
Definition finish1 (k : variant) : line :=
  match k with
  | Backgammon => [(Double 4, 6); (Double 4, 31); (Double 6, 16); (Mixed 6 3, 12); (Double 6, 4); (Double 5, 23); (Double 6, 5); (Double 5, 12); (Double 6, 0); (Mixed 6 5, 5); (Double 6, 0); (Mixed 6 5, 0); (Double 6, 0); (Double 5, 0); (Double 6, 0); (Double 6, 0); (Double 6, 0)]
  | Nackgammon => [(Mixed 6 1, 2); (Mixed 6 5, 3); (Double 6, 12); (Mixed 2 1, 10); (Double 6, 6); (Mixed 3 1, 3); (Double 6, 0); (Mixed 6 3, 3); (Double 6, 0); (Double 1, 18); (Double 6, 1); (Mixed 4 3, 10); (Double 6, 0); (Mixed 2 1, 12); (Double 6, 0); (Mixed 2 1, 35); (Double 2, 3); (Mixed 6 5, 37); (Double 6, 0); (Mixed 6 3, 25); (Double 6, 0)]
  | Longgammon => [(Double 1, 2); (Double 6, 5); (Double 5, 4); (Double 6, 1); (Mixed 2 1, 0); (Double 6, 1); (Mixed 2 1, 13); (Double 6, 3); (Mixed 3 1, 15); (Double 6, 5); (Double 4, 4); (Double 6, 0); (Mixed 6 3, 9); (Double 6, 2); (Mixed 6 5, 9); (Double 6, 6); (Mixed 6 3, 16); (Double 6, 1); (Mixed 3 1, 9); (Double 6, 0); (Mixed 3 1, 17); (Double 6, 0); (Mixed 3 1, 2); (Double 6, 0); (Double 6, 48); (Double 6, 0); (Mixed 3 1, 29); (Double 6, 0)]
  | Hypergammon => [(Double 6, 2); (Mixed 3 2, 0); (Double 6, 0); (Mixed 6 3, 0); (Double 6, 0)]
  | Hypergammon2 => [(Double 6, 0); (Mixed 3 2, 1); (Mixed 6 2, 1); (Mixed 2 1, 0); (Double 6, 0)]
  | Hypergammon4 => [(Double 6, 6); (Mixed 6 3, 5); (Double 6, 1); (Double 5, 6); (Mixed 3 2, 10); (Mixed 2 1, 0); (Double 6, 0); (Double 1, 5); (Double 6, 0)]
  | Hypergammon5 => [(Double 6, 10); (Mixed 2 1, 6); (Double 6, 1); (Mixed 4 3, 5); (Double 6, 2); (Mixed 6 3, 6); (Double 6, 0); (Mixed 3 1, 1); (Double 6, 0)]
  end.

(** Games for the lengths in between. *)
Definition other_games (k : variant) : list line :=
  match k with
  | Backgammon => [[(Mixed 6 4, 5); (Double 4, 46); (Double 6, 11); (Double 4, 29); (Double 6, 8); (Mixed 2 1, 4); (Double 6, 0); (Double 1, 21); (Double 6, 0); (Mixed 2 1, 0); (Double 6, 0); (Double 1, 0); (Double 6, 0); (Mixed 6 3, 0); (Double 6, 0); (Mixed 2 1, 33); (Double 6, 0)]]
  | Nackgammon => [[(Mixed 5 4, 6); (Double 5, 8); (Double 6, 35); (Double 4, 6); (Double 6, 22); (Double 4, 10); (Double 6, 0); (Mixed 2 1, 5); (Double 6, 2); (Mixed 4 3, 4); (Double 6, 1); (Mixed 6 3, 0); (Double 6, 0); (Double 5, 0); (Double 6, 0); (Double 1, 0); (Double 6, 0); (Mixed 6 3, 3); (Double 6, 0)];
      [(Mixed 4 3, 15); (Mixed 2 1, 0); (Mixed 4 2, 1); (Mixed 2 1, 9); (Double 6, 17); (Double 1, 47); (Double 6, 7); (Mixed 2 1, 14); (Double 6, 6); (Mixed 2 1, 6); (Double 6, 8); (Mixed 2 1, 36); (Double 6, 0); (Double 4, 0); (Double 6, 0); (Mixed 3 2, 0); (Double 6, 0); (Mixed 6 5, 2); (Double 6, 0); (Double 5, 21); (Double 6, 0)]]
  | Longgammon => [[(Mixed 2 1, 1); (Double 6, 0); (Mixed 6 5, 3); (Double 6, 0); (Mixed 3 2, 3); (Double 6, 4); (Double 5, 0); (Double 6, 9); (Double 5, 0); (Double 6, 9); (Double 6, 0); (Double 6, 6); (Mixed 6 3, 0); (Double 6, 5); (Mixed 3 1, 0); (Double 6, 5); (Mixed 3 1, 10); (Double 6, 6); (Mixed 2 1, 7); (Double 6, 1); (Double 6, 33); (Double 6, 0); (Mixed 6 3, 16); (Double 6, 0); (Mixed 4 3, 15); (Double 6, 0); (Double 1, 126); (Double 6, 0); (Mixed 6 5, 7); (Double 6, 0)];
      [(Mixed 3 1, 0); (Double 6, 3); (Mixed 4 3, 1); (Double 6, 8); (Mixed 2 1, 5); (Double 6, 7); (Mixed 2 1, 3); (Double 6, 0); (Mixed 4 3, 1); (Double 6, 8); (Mixed 3 1, 12); (Double 6, 1); (Mixed 6 5, 20); (Double 6, 6); (Mixed 6 5, 1); (Double 6, 0); (Double 1, 93); (Double 6, 1); (Mixed 6 3, 2); (Double 6, 2); (Mixed 2 1, 18); (Double 6, 0); (Double 4, 150); (Double 2, 1); (Double 1, 34); (Double 6, 0); (Double 6, 217); (Double 6, 0); (Mixed 3 1, 14); (Double 6, 0); (Mixed 4 3, 29); (Double 6, 0)]]
  | Hypergammon => []
  | Hypergammon2 => [[(Mixed 6 3, 1); (Mixed 6 3, 2); (Double 6, 0); (Mixed 3 1, 2); (Double 6, 0)]]
  | Hypergammon4 => [[(Mixed 2 1, 6); (Double 6, 6); (Double 6, 7); (Double 6, 6); (Mixed 3 1, 4); (Double 6, 0); (Double 1, 3); (Double 6, 0)];
      [(Mixed 6 5, 15); (Double 5, 29); (Double 6, 10); (Double 1, 0); (Double 6, 0); (Mixed 6 3, 10); (Double 6, 0); (Mixed 3 1, 5); (Double 6, 0)]]
  | Hypergammon5 => []
  end.
