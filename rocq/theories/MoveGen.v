(** Model of position.rs:526-549 (move generation entry points). *)
From Verif Require Export DoubleMoves.
Open Scope Z_scope.

(** position.rs:535-549: [generate_legal_positions_in]; 526-533:
    [generate_legal_positions] (same list in a fresh vector). *)
Definition generate_legal_positions (m : mode) (N : Z) (p : position) (d : dice)
  : res (list position) :=
  debug_assert m ((o_off p <? N) && (x_off p <? N)) ;;;
  out <- match d with
         | Double die => all_positions_after_double_move m p die
         | Mixed big small => all_positions_after_mixed_move m p big small
         end ;;
  out <- mmap (flip m) out ;;
  debug_assert m (negb (match out with [] => true | _ => false end)) ;;;
  Ret out.
