(** Specification for property C87: games played by chance. *)
From Verif Require Export SpecFinish Dice.
From Coq Require Export QArith.
Open Scope Q_scope.

(** The average of a list of numbers. *)
Definition avg (l : list Q) : Q :=
  match l with [] => 1 | _ => fold_right Qplus 0 l / inject_Z (Z.of_nat (length l)) end.

(** A game by chance: before every turn ask [game_state] whether the game is over; if not, roll (the number drawn by
    the generator is uniform on 0..35), ask for the legal positions and go to a uniformly chosen entry.  The
    probability that the game has not been reported as over after [n] turns (a crash, or an empty list, would
    count as never over). *)
Fixpoint unfinished (m : mode) (n : nat) (v : vpos) : Q :=
  match vp_game_state m v with
  | Ret (GameOver _) => 0
  | Panic _ => 1
  | Ret Ongoing =>
      match n with
      | O => 1
      | S n => avg (map (fun r => match (d <- fastrand_roll m r ;; legal_positions m v d) with
                                  | Ret l => avg (map (unfinished m n) l)
                                  | Panic _ => 1
                                  end) (seq 0 36))
      end
  end.

(** The game ends with probability one. *)
Definition surely_ends (m : mode) (v : vpos) : Prop :=
  forall eps, 0 < eps -> exists n, unfinished m n v < eps.

(** The expected number of turns is the sum of the probabilities of not being over after 0, 1, 2, ... turns. *)
Definition expected_turns (m : mode) (n : nat) (v : vpos) : Q :=
  fold_right Qplus 0 (map (fun i => unfinished m i v) (seq 0 n)).
