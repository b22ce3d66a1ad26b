(** Independent specification for C77: the positions the movegen benchmark measures. *)
From Verif Require Export SpecGame.
Open Scope Z_scope.

(** A random number generator: a number below [n] is drawn whenever there is one. *)
Definition draws_in_range {R} (draw : R -> nat -> nat * R) : Prop := forall r n, (0 < n)%nat -> (fst (draw r n) < n)%nat.

(** A position of a game from the start of backgammon, in play, after at least one and at most [n] plays. *)
Definition from_a_game (n : nat) (p : position) : Prop :=
  exists i, (1 <= i <= n)%nat /\ played i (start_position Backgammon) (VBackgammon p) /\ wf 15 p /\ ongoing 15 p.

(** The sides have passed each other, or not. *)
Definition has_phase (t : ongoing_phase) (p : position) : Prop :=
  match t with Race => no_contact p | Contact => ~ no_contact p end.
