(** Independent specification: the one kind of position whose move list repeats a position. *)
From Verif Require Export SpecRules SpecVariants.
Open Scope Z_scope.

(** The rearmost checker of x stands alone on point [a], not beyond the smaller die [S], and the next one
    on point [b < a]: both dice, in either order, bear off these two. *)
Definition two_left (S : nat) (p : position) : Prop :=
  exists a b, (1 <= b < a)%nat /\ (a <= S)%nat /\ pt p a = 1 /\ 0 < pt p b /\ forall i, (b < i <= 25)%nat -> i <> a -> pt p i <= 0.
Definition repeats (d : dice) (p : position) : Prop := exists B S, d = Mixed B S /\ two_left S p.
