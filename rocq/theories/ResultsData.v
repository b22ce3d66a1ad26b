(** Witness games for property C92, as rolls and indices into the lists [legal_positions] returns; found by a
    search outside Coq, checked in PropResults.v. *)
From Verif Require Export HowLongData.
Open Scope nat_scope.

(** For each variant a game won by the player who began (or by the other), single, with a gammon and with a
    backgammon. *)
Definition game_LoseNormal (k : variant) (first : bool) : line :=
  match k, first with
  | Backgammon, true =>
      [(Mixed 6 3, 9); (Mixed 6 5, 2); (Mixed 3 2, 15); (Mixed 6 5, 1); (Mixed 2 1, 16); (Double 5, 1); (Mixed 3 1, 17); (Double 4, 30); (Mixed 3 2, 11); (Double 6, 4); (Mixed 2 1, 6); (Double 6, 0); (Double 1, 111); (Double 5, 0); (Double 1, 33); (Double 4, 0); (Mixed 6 5, 12); (Double 1, 24); (Double 6, 18); (Mixed 2 1, 5); (Double 6, 1); (Mixed 3 1, 0); (Double 6, 0); (Mixed 2 1, 0); (Double 6, 0); (Double 1, 3); (Double 3, 0); (Mixed 2 1, 0); (Double 6, 0); (Mixed 2 1, 0); (Double 3, 0)]
  | Backgammon, false =>
      [(Mixed 3 2, 0); (Mixed 3 1, 13); (Double 3, 20); (Double 1, 58); (Double 4, 13); (Mixed 3 2, 14); (Double 4, 9); (Mixed 2 1, 24); (Double 6, 13); (Mixed 3 1, 23); (Double 4, 4); (Mixed 3 2, 8); (Double 6, 0); (Double 4, 39); (Mixed 2 1, 1); (Double 6, 12); (Double 1, 7); (Mixed 6 5, 4); (Mixed 2 1, 7); (Double 6, 1); (Mixed 3 1, 5); (Double 4, 0); (Mixed 2 1, 3); (Double 6, 0); (Mixed 2 1, 11); (Double 5, 0); (Mixed 2 1, 4); (Double 6, 0); (Mixed 3 1, 7); (Double 3, 0)]
  | Nackgammon, true =>
      [(Mixed 5 1, 6); (Double 5, 3); (Mixed 3 2, 12); (Double 5, 0); (Mixed 2 1, 4); (Double 4, 4); (Double 1, 53); (Double 4, 1); (Double 1, 6); (Double 6, 2); (Mixed 2 1, 17); (Double 6, 0); (Mixed 3 1, 3); (Double 4, 1); (Mixed 6 5, 7); (Double 1, 12); (Double 3, 17); (Mixed 3 1, 2); (Double 5, 16); (Mixed 2 1, 5); (Double 4, 7); (Double 1, 1); (Mixed 6 5, 4); (Mixed 2 1, 1); (Double 6, 5); (Mixed 3 1, 3); (Double 6, 0); (Mixed 3 1, 0); (Double 6, 0); (Double 1, 18); (Double 6, 0); (Mixed 3 1, 2); (Double 5, 0); (Mixed 2 1, 7); (Double 3, 0)]
  | Nackgammon, false =>
      [(Mixed 4 3, 0); (Mixed 3 2, 2); (Double 4, 10); (Mixed 3 2, 8); (Mixed 6 5, 2); (Mixed 3 2, 42); (Double 5, 85); (Mixed 2 1, 52); (Double 4, 10); (Mixed 3 1, 40); (Double 6, 20); (Mixed 2 1, 55); (Double 4, 6); (Double 1, 25); (Double 5, 3); (Mixed 6 5, 19); (Mixed 3 1, 0); (Double 5, 52); (Double 1, 38); (Double 5, 20); (Double 1, 17); (Double 4, 0); (Mixed 3 1, 13); (Double 5, 18); (Mixed 2 1, 2); (Double 4, 10); (Double 1, 19); (Double 6, 0); (Mixed 3 1, 2); (Double 6, 0); (Double 1, 5); (Double 5, 0); (Double 1, 6); (Double 5, 0); (Mixed 3 1, 2); (Double 6, 0)]
  | Longgammon, true =>
      [(Mixed 4 2, 1); (Double 3, 4); (Double 1, 10); (Double 3, 11); (Mixed 3 1, 1); (Double 3, 11); (Mixed 3 2, 6); (Double 3, 10); (Mixed 3 1, 1); (Double 4, 10); (Mixed 3 2, 10); (Double 3, 27); (Double 1, 11); (Double 6, 32); (Double 1, 53); (Mixed 6 5, 0); (Mixed 3 2, 27); (Double 6, 44); (Mixed 3 2, 2); (Double 6, 47); (Mixed 3 1, 31); (Double 5, 8); (Mixed 3 2, 10); (Double 4, 13); (Mixed 3 1, 8); (Double 3, 24); (Double 1, 31); (Double 5, 4); (Double 1, 5); (Double 5, 2); (Mixed 3 2, 14); (Double 4, 13); (Double 1, 3); (Double 6, 0); (Mixed 3 1, 6); (Double 5, 2); (Mixed 3 1, 10); (Double 3, 0); (Double 6, 108); (Mixed 2 1, 0); (Double 6, 32); (Mixed 3 1, 0); (Double 5, 36); (Mixed 3 1, 1); (Double 5, 87); (Double 1, 5); (Double 6, 157); (Double 1, 14); (Double 5, 52); (Mixed 3 1, 1); (Double 4, 36); (Mixed 3 1, 5); (Double 5, 14); (Mixed 2 1, 3); (Mixed 6 5, 5); (Mixed 2 1, 13); (Double 6, 0); (Mixed 3 1, 5); (Double 5, 0); (Double 1, 16); (Double 3, 4); (Mixed 2 1, 8); (Double 5, 0); (Mixed 2 1, 2); (Double 3, 0); (Mixed 2 1, 2); (Double 4, 0); (Mixed 2 1, 1); (Mixed 6 5, 0); (Mixed 3 1, 0); (Double 6, 0)]
  | Longgammon, false =>
      [(Mixed 3 2, 0); (Double 1, 1); (Double 3, 17); (Mixed 3 2, 1); (Double 3, 25); (Mixed 2 1, 3); (Double 3, 25); (Mixed 3 1, 20); (Double 5, 24); (Mixed 2 1, 12); (Double 5, 39); (Mixed 3 1, 3); (Double 3, 55); (Mixed 3 1, 14); (Double 4, 116); (Double 1, 24); (Mixed 6 5, 19); (Mixed 3 2, 18); (Double 6, 15); (Mixed 3 2, 2); (Double 3, 77); (Mixed 3 1, 15); (Double 6, 68); (Mixed 3 2, 11); (Mixed 6 5, 16); (Double 1, 61); (Double 5, 7); (Mixed 3 1, 5); (Double 5, 0); (Mixed 3 1, 34); (Double 6, 0); (Mixed 3 1, 27); (Double 6, 0); (Mixed 2 1, 11); (Double 5, 0); (Mixed 3 2, 30); (Double 6, 0); (Mixed 3 2, 0); (Double 6, 0); (Mixed 3 1, 0); (Double 5, 0); (Double 5, 12); (Double 1, 0); (Double 6, 72); (Mixed 2 1, 2); (Double 5, 20); (Mixed 2 1, 2); (Double 6, 50); (Mixed 3 1, 0); (Double 4, 63); (Double 1, 1); (Double 6, 29); (Mixed 2 1, 4); (Double 6, 28); (Double 1, 3); (Double 5, 100); (Mixed 3 1, 1); (Double 5, 6); (Mixed 2 1, 2); (Double 6, 1); (Mixed 3 1, 2); (Mixed 6 5, 0); (Double 1, 0); (Double 5, 2); (Mixed 2 1, 4); (Double 6, 0); (Mixed 3 1, 2); (Mixed 6 5, 0); (Double 1, 5); (Double 4, 0); (Mixed 3 1, 1); (Double 6, 0)]
  | Hypergammon, true =>
      [(Mixed 6 3, 2); (Mixed 6 5, 8); (Double 1, 2); (Double 4, 4); (Double 1, 3); (Mixed 6 5, 9); (Mixed 3 1, 2); (Double 6, 0); (Double 6, 3); (Mixed 2 1, 0); (Double 3, 3); (Mixed 2 1, 0); (Double 6, 0)]
  | Hypergammon, false =>
      [(Mixed 5 4, 8); (Double 1, 4); (Double 4, 8); (Mixed 3 2, 2); (Double 4, 2); (Mixed 3 1, 1); (Double 5, 0); (Double 6, 2); (Mixed 2 1, 0); (Double 5, 0); (Double 1, 0); (Double 6, 0)]
  | Hypergammon2, true =>
      [(Mixed 6 3, 1); (Double 5, 3); (Double 1, 1); (Double 3, 1); (Mixed 3 1, 2); (Mixed 6 5, 0); (Double 5, 1); (Mixed 2 1, 0); (Double 6, 0)]
  | Hypergammon2, false =>
      [(Mixed 6 4, 3); (Mixed 3 1, 1); (Double 3, 3); (Mixed 3 1, 3); (Double 6, 0); (Double 3, 2); (Double 1, 0); (Double 6, 0); (Mixed 3 1, 0); (Double 3, 0)]
  | Hypergammon4, true =>
      [(Mixed 6 2, 0); (Double 5, 33); (Double 1, 10); (Double 5, 30); (Mixed 3 1, 11); (Double 3, 6); (Mixed 3 1, 0); (Double 6, 0); (Double 6, 7); (Double 1, 2); (Double 6, 0); (Mixed 3 1, 2); (Mixed 6 5, 0); (Double 1, 0); (Double 5, 0)]
  | Hypergammon4, false =>
      [(Mixed 5 2, 13); (Mixed 3 1, 4); (Double 6, 15); (Double 1, 3); (Double 6, 10); (Double 1, 5); (Double 5, 0); (Mixed 3 2, 2); (Double 4, 0); (Double 5, 5); (Mixed 2 1, 1); (Double 6, 5); (Mixed 3 1, 3); (Double 6, 0); (Mixed 3 1, 1); (Double 4, 0)]
  | Hypergammon5, true =>
      [(Mixed 6 3, 22); (Double 6, 60); (Double 1, 7); (Mixed 6 5, 23); (Mixed 3 2, 2); (Double 5, 45); (Mixed 3 2, 5); (Double 4, 10); (Mixed 2 1, 9); (Double 6, 0); (Double 6, 13); (Mixed 2 1, 1); (Double 6, 8); (Mixed 2 1, 4); (Double 5, 0); (Mixed 3 1, 3); (Double 3, 0); (Double 1, 0); (Double 4, 0)]
  | Hypergammon5, false =>
      [(Mixed 4 3, 21); (Double 1, 2); (Double 3, 24); (Double 1, 5); (Double 4, 38); (Mixed 3 1, 1); (Double 5, 15); (Mixed 2 1, 8); (Mixed 6 5, 0); (Mixed 3 2, 1); (Double 6, 0); (Double 6, 3); (Mixed 3 1, 3); (Double 5, 6); (Mixed 3 1, 0); (Mixed 6 5, 1); (Double 1, 2); (Double 5, 0); (Double 1, 1); (Double 6, 0)]
  end.
Definition game_LoseGammon (k : variant) (first : bool) : line :=
  match k, first with
  | Backgammon, true =>
      [(Mixed 4 2, 0); (Double 6, 14); (Double 3, 16); (Double 1, 16); (Double 3, 47); (Mixed 2 1, 3); (Double 6, 14); (Mixed 2 1, 22); (Double 3, 117); (Mixed 2 1, 4); (Double 6, 0); (Mixed 3 1, 25); (Double 6, 0); (Double 1, 315); (Mixed 6 5, 0); (Mixed 3 1, 23); (Double 5, 0); (Mixed 3 1, 20); (Double 6, 0); (Double 1, 84); (Double 3, 0)]
  | Backgammon, false =>
      [(Mixed 6 1, 0); (Double 1, 16); (Double 5, 27); (Double 6, 4); (Mixed 3 1, 9); (Double 3, 67); (Mixed 3 1, 6); (Double 5, 10); (Mixed 2 1, 7); (Double 6, 9); (Double 4, 10); (Double 1, 27); (Mixed 6 5, 1); (Double 5, 9); (Mixed 3 1, 6); (Mixed 6 5, 0); (Mixed 3 1, 40); (Double 5, 0); (Double 1, 258); (Double 4, 0); (Mixed 2 1, 16); (Double 3, 0); (Double 1, 125); (Double 3, 0)]
  | Nackgammon, true =>
      [(Mixed 6 3, 1); (Double 3, 101); (Mixed 2 1, 7); (Double 5, 99); (Mixed 6 5, 14); (Mixed 2 1, 2); (Double 4, 119); (Mixed 2 1, 29); (Mixed 6 5, 11); (Double 1, 85); (Double 6, 48); (Double 1, 73); (Double 5, 22); (Mixed 3 1, 24); (Double 5, 10); (Mixed 3 1, 10); (Double 6, 5); (Mixed 2 1, 18); (Double 4, 8); (Double 1, 96); (Double 6, 0); (Mixed 2 1, 26); (Double 4, 0); (Double 1, 51); (Double 4, 0); (Double 1, 46); (Double 6, 0)]
  | Nackgammon, false =>
      [(Mixed 6 1, 0); (Mixed 3 2, 2); (Double 5, 56); (Double 6, 7); (Mixed 2 1, 16); (Double 3, 3); (Mixed 3 1, 6); (Double 3, 3); (Mixed 3 1, 0); (Double 4, 18); (Mixed 2 1, 14); (Double 3, 13); (Double 1, 42); (Double 4, 11); (Double 1, 127); (Double 6, 4); (Mixed 3 1, 27); (Double 6, 0); (Double 1, 195); (Double 4, 0); (Mixed 2 1, 8); (Double 6, 0); (Double 1, 135); (Double 3, 0); (Mixed 2 1, 2); (Double 3, 0)]
  | Longgammon, true =>
      [(Mixed 3 1, 1); (Double 6, 3); (Mixed 3 2, 3); (Double 6, 8); (Mixed 2 1, 0); (Double 6, 8); (Mixed 2 1, 5); (Double 4, 18); (Mixed 3 2, 9); (Double 3, 33); (Double 6, 19); (Double 1, 7); (Double 5, 47); (Mixed 2 1, 2); (Mixed 6 5, 3); (Double 1, 30); (Mixed 6 5, 14); (Double 1, 13); (Double 6, 7); (Mixed 2 1, 2); (Double 6, 0); (Double 1, 18); (Double 5, 14); (Mixed 2 1, 0); (Double 5, 4); (Mixed 2 1, 0); (Double 4, 52); (Mixed 3 1, 3); (Mixed 6 5, 1); (Mixed 3 1, 12); (Double 3, 0); (Mixed 6 5, 4); (Double 5, 18); (Mixed 3 1, 7); (Double 5, 6); (Double 1, 7); (Double 6, 13); (Double 1, 9); (Double 6, 1); (Mixed 2 1, 5); (Double 6, 0); (Mixed 3 1, 3); (Double 4, 1); (Double 1, 104); (Double 4, 0); (Mixed 3 1, 2); (Double 5, 0); (Mixed 3 1, 16); (Double 5, 0); (Mixed 2 1, 5); (Double 4, 0)]
  | Longgammon, false =>
      [(Mixed 5 4, 0); (Double 1, 1); (Double 5, 15); (Mixed 3 1, 3); (Double 5, 23); (Double 1, 13); (Double 6, 29); (Mixed 3 2, 15); (Double 4, 57); (Mixed 3 2, 2); (Double 6, 49); (Mixed 2 1, 19); (Double 5, 48); (Double 5, 25); (Double 1, 55); (Double 6, 12); (Mixed 3 1, 4); (Double 6, 2); (Mixed 2 1, 1); (Double 6, 0); (Double 1, 55); (Double 6, 2); (Double 1, 29); (Double 5, 3); (Mixed 2 1, 5); (Double 5, 9); (Mixed 3 1, 0); (Double 6, 3); (Double 1, 0); (Double 4, 31); (Double 1, 0); (Double 6, 1); (Double 1, 0); (Double 4, 41); (Double 1, 0); (Mixed 6 5, 0); (Mixed 3 1, 1); (Double 6, 6); (Mixed 2 1, 2); (Double 4, 14); (Mixed 3 1, 4); (Double 5, 0); (Double 1, 12); (Mixed 6 5, 0); (Double 1, 37); (Double 3, 1); (Double 1, 33); (Double 4, 0); (Double 1, 1); (Double 6, 0); (Mixed 2 1, 22); (Double 5, 0)]
  | Hypergammon, true =>
      [(Mixed 4 3, 5); (Double 5, 14); (Double 6, 3); (Double 1, 4); (Double 6, 0); (Mixed 3 1, 2); (Double 6, 0)]
  | Hypergammon, false =>
      [(Mixed 6 3, 8); (Mixed 3 2, 7); (Double 6, 4); (Double 5, 2); (Mixed 3 1, 1); (Double 6, 1); (Double 1, 4); (Double 5, 0)]
  | Hypergammon2, true =>
      [(Mixed 6 5, 2); (Mixed 6 5, 3); (Double 6, 0); (Mixed 2 1, 0); (Double 5, 0)]
  | Hypergammon2, false =>
      [(Mixed 6 5, 3); (Double 6, 0); (Mixed 2 1, 0); (Double 6, 0)]
  | Hypergammon4, true =>
      [(Mixed 5 2, 3); (Double 6, 27); (Double 4, 10); (Double 1, 2); (Double 5, 3); (Mixed 2 1, 3); (Mixed 6 5, 7); (Mixed 3 1, 0); (Double 6, 0); (Mixed 2 1, 2); (Double 5, 0)]
  | Hypergammon4, false =>
      [(Mixed 6 3, 14); (Double 1, 6); (Double 3, 27); (Double 6, 17); (Double 1, 2); (Double 6, 0); (Double 1, 13); (Mixed 6 5, 1); (Mixed 3 1, 2); (Double 6, 0); (Double 1, 16); (Double 4, 0)]
  | Hypergammon5, true =>
      [(Mixed 5 3, 7); (Double 6, 64); (Mixed 3 2, 10); (Mixed 6 5, 25); (Double 5, 51); (Mixed 2 1, 1); (Double 5, 2); (Double 1, 0); (Double 4, 2); (Double 1, 3); (Double 6, 0); (Mixed 3 1, 3); (Double 6, 0)]
  | Hypergammon5, false =>
      [(Mixed 4 2, 20); (Mixed 3 2, 13); (Mixed 6 5, 10); (Mixed 3 2, 11); (Double 3, 28); (Double 6, 23); (Double 1, 1); (Double 5, 24); (Mixed 3 1, 7); (Double 6, 4); (Mixed 3 1, 4); (Double 6, 0); (Double 1, 3); (Double 6, 0)]
  end.
Definition game_LoseBackgammon (k : variant) (first : bool) : line :=
  match k, first with
  | Backgammon, true =>
      [(Mixed 3 1, 0); (Mixed 2 1, 5); (Double 5, 4); (Double 1, 9); (Mixed 6 5, 2); (Double 1, 23); (Mixed 6 5, 10); (Mixed 2 1, 8); (Double 3, 23); (Mixed 2 1, 13); (Double 4, 25); (Mixed 3 1, 10); (Double 6, 0); (Mixed 3 1, 15); (Double 6, 0); (Double 1, 36); (Double 6, 0); (Double 1, 24); (Double 6, 0); (Mixed 3 1, 14); (Double 3, 0)]
  | Backgammon, false =>
      [(Mixed 4 2, 7); (Double 5, 1); (Mixed 3 1, 14); (Double 4, 45); (Double 1, 12); (Double 4, 25); (Double 1, 22); (Double 6, 5); (Mixed 3 1, 16); (Double 4, 5); (Mixed 3 1, 3); (Mixed 6 5, 0); (Double 1, 3); (Double 6, 0); (Mixed 2 1, 23); (Double 5, 0); (Mixed 2 1, 28); (Double 4, 0); (Mixed 3 1, 6); (Double 3, 0)]
  | Nackgammon, true =>
      [(Mixed 6 4, 7); (Mixed 2 1, 16); (Double 3, 109); (Mixed 3 1, 10); (Double 3, 11); (Mixed 2 1, 22); (Double 6, 2); (Mixed 2 1, 31); (Double 4, 4); (Double 1, 31); (Double 4, 1); (Double 1, 1); (Double 3, 3); (Mixed 3 1, 11); (Double 6, 0); (Mixed 2 1, 8); (Double 5, 0); (Mixed 3 1, 12); (Double 6, 0); (Double 1, 56); (Double 3, 0); (Double 1, 75); (Double 4, 0)]
  | Nackgammon, false =>
      [(Mixed 4 3, 8); (Double 4, 19); (Mixed 3 1, 15); (Double 4, 10); (Double 1, 16); (Double 4, 2); (Double 1, 34); (Double 6, 4); (Double 1, 87); (Double 6, 2); (Mixed 3 1, 13); (Double 5, 0); (Mixed 3 1, 11); (Double 4, 0); (Double 1, 0); (Double 6, 0); (Mixed 2 1, 19); (Double 5, 0); (Mixed 3 1, 5); (Double 6, 0); (Double 1, 32); (Double 4, 0)]
  | Longgammon, true =>
      [(Mixed 4 1, 0); (Mixed 3 1, 1); (Double 5, 3); (Double 1, 0); (Double 5, 14); (Mixed 2 1, 4); (Double 4, 44); (Mixed 3 1, 4); (Double 6, 42); (Mixed 2 1, 3); (Double 5, 3); (Mixed 2 1, 3); (Double 5, 13); (Mixed 3 1, 2); (Double 5, 18); (Double 1, 4); (Double 5, 39); (Double 1, 0); (Double 6, 1); (Mixed 2 1, 0); (Double 5, 4); (Mixed 2 1, 0); (Double 6, 11); (Mixed 2 1, 4); (Double 5, 2); (Mixed 2 1, 0); (Double 3, 21); (Mixed 2 1, 0); (Double 5, 9); (Double 1, 0); (Double 4, 2); (Mixed 2 1, 0); (Double 3, 0); (Double 1, 0); (Double 3, 1); (Mixed 3 1, 0); (Double 6, 0); (Mixed 3 1, 3); (Double 5, 0); (Mixed 3 1, 7); (Double 3, 0)]
  | Longgammon, false =>
      [(Mixed 4 1, 1); (Mixed 6 5, 0); (Mixed 3 1, 3); (Mixed 6 5, 1); (Mixed 2 1, 2); (Double 4, 6); (Mixed 3 1, 5); (Double 4, 13); (Double 1, 0); (Double 6, 11); (Mixed 3 1, 6); (Double 5, 27); (Double 1, 1); (Double 5, 38); (Double 1, 4); (Double 5, 15); (Mixed 3 1, 3); (Double 5, 2); (Mixed 3 1, 5); (Double 3, 93); (Double 1, 12); (Double 5, 16); (Mixed 2 1, 8); (Double 6, 16); (Double 1, 1); (Mixed 6 5, 3); (Mixed 3 1, 3); (Double 5, 10); (Mixed 3 1, 3); (Double 5, 9); (Mixed 2 1, 3); (Double 6, 0); (Mixed 2 1, 2); (Double 4, 0); (Double 1, 0); (Mixed 6 5, 0); (Mixed 3 1, 1); (Double 5, 0); (Mixed 2 1, 2); (Double 4, 0); (Double 1, 0); (Double 3, 0)]
  | Hypergammon, true =>
      [(Mixed 3 1, 3); (Mixed 2 1, 3); (Double 6, 3); (Mixed 2 1, 4); (Double 6, 0); (Double 1, 0); (Double 6, 0)]
  | Hypergammon, false =>
      [(Mixed 6 5, 5); (Double 6, 6); (Mixed 2 1, 4); (Double 6, 0); (Mixed 2 1, 4); (Double 6, 0)]
  | Hypergammon2, true =>
      [(Mixed 6 2, 2); (Mixed 3 1, 1); (Double 5, 0); (Mixed 2 1, 2); (Double 5, 0)]
  | Hypergammon2, false =>
      [(Mixed 4 3, 2); (Double 6, 0); (Mixed 3 1, 2); (Double 6, 0)]
  | Hypergammon4, true =>
      [(Mixed 4 3, 10); (Double 1, 0); (Double 5, 25); (Mixed 2 1, 7); (Double 6, 6); (Double 1, 0); (Double 6, 0); (Mixed 2 1, 0); (Double 6, 0)]
  | Hypergammon4, false =>
      [(Mixed 3 2, 7); (Double 6, 15); (Mixed 2 1, 7); (Double 6, 5); (Mixed 3 1, 7); (Double 4, 6); (Mixed 2 1, 7); (Double 6, 0); (Double 1, 0); (Double 3, 0)]
  | Hypergammon5, true =>
      [(Mixed 6 3, 16); (Mixed 3 1, 10); (Double 6, 36); (Mixed 2 1, 11); (Double 6, 9); (Mixed 3 1, 11); (Double 4, 28); (Mixed 3 1, 8); (Double 5, 0); (Mixed 3 1, 3); (Double 5, 0)]
  | Hypergammon5, false =>
      [(Mixed 6 2, 11); (Double 6, 51); (Double 1, 1); (Double 4, 39); (Mixed 2 1, 12); (Double 6, 9); (Double 1, 0); (Double 6, 0); (Mixed 3 1, 0); (Mixed 6 5, 0); (Mixed 2 1, 7); (Double 6, 0)]
  end.
