(** Specification for property C90: how long games last. *)
From Verif Require Export SpecReplay.
Open Scope Z_scope.

(** A die moves a checker at most six points, so a checker [i] points from being borne off needs at least one
    single move for every six points begun: [(i + 5) / 6].  The single moves a side needs altogether. *)
Definition x_moves_needed (p : position) : Z :=
  sumZ (map (fun i => Z.of_nat ((i + 5) / 6) * Z.max 0 (pt p i)) (seq 0 26)).
Definition o_moves_needed (p : position) : Z :=
  sumZ (map (fun i => Z.of_nat ((25 - i + 5) / 6) * Z.max 0 (- pt p i)) (seq 0 26)).

(** The fewest plies of a game, when it may open with a double ... *)
Definition fewest (k : variant) : nat :=
  match k with
  | Backgammon => 17 | Nackgammon => 19 | Longgammon => 29
  | Hypergammon2 => 3 | Hypergammon => 5 | Hypergammon4 => 7 | Hypergammon5 => 9
  end.
(** ... and when, as in [play_episode], the first roll is not a double. *)
Definition fewest_opened (k : variant) : nat :=
  match k with
  | Backgammon => 17 | Nackgammon => 19 | Longgammon => 30
  | Hypergammon2 => 4 | Hypergammon => 6 | Hypergammon4 => 8 | Hypergammon5 => 10
  end.

(** A game of exactly [n] plies that ends with the last of them ([played] and [recorded] go on only while
    nobody has won), from any rolls; and one that opens as the rules say. *)
Definition game_of (k : variant) (n : nat) : Prop :=
  exists w, played n (start_position k) w /\ ~ vongoing w.
Definition opened_game_of (k : variant) (n : nat) : Prop :=
  exists l u, recorded (start_position k) l u /\ opens_mixed l /\ List.length l = n /\ ~ vongoing u.
