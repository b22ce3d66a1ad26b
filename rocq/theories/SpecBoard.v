(** Specification for property C85: two positions that show the same board. *)
From Verif Require Export SpecVariants.
Open Scope Z_scope.

(** The 24 points and the two bars show the same numbers. *)
Definition same_board (p q : position) : Prop := forall i, (i < 26)%nat -> pt p i = pt q i.

(** The same board, and both sides of [p] have [k] more checkers borne off than those of [q]. *)
Definition same_but_off (k : Z) (p q : position) : Prop :=
  same_board p q /\ x_off p = x_off q + k /\ o_off p = o_off q + k.
