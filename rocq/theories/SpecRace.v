(** Independent specification for C74 (races end) and C75 (shortest games): what a policy must do, and the
    pips both sides have to go. *)
From Verif Require Export SpecEpisode.
Open Scope Z_scope.

(** A policy that always points into a non-empty list. *)
Definition policy_in_range {S} (P : policy S) : Prop :=
  forall ps v d l, l <> [] -> (fst (P ps v d l) < length l)%nat.

(** The pips both sides together still have to go. *)
Definition pips_to_go (v : vpos) : Z := x_pips (board_of v) + o_pips (board_of v).
