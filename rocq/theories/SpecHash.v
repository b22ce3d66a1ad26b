(** Independent specification for property C66: numbering the arrangements of one side's checkers. *)
From Verif Require Export SpecRules SpecComb.
Open Scope Z_scope.

(** One side's arrangement: checkers off, then on the points 1..24 (the rest is on the bar). *)
Definition x_arrangement (p : position) : list Z := x_off p :: map (fun i => Z.max 0 (pt p i)) (seq 1 24).
Definition o_arrangement (p : position) : list Z := o_off p :: map (fun i => Z.max 0 (- pt p i)) (seq 1 24).
(** Arrangement [a] is listed before [b]: it has more at the first place where they differ. *)
Definition listed_before (a b : list Z) : Prop :=
  exists c x y a' b', a = c ++ x :: a' /\ b = c ++ y :: b' /\ y < x.

(** [n] numbers the arrangements [f p] of the positions with N checkers a side, without gaps, in the
    order of [listed_before]: the first is 0 and the last is w - 1. *)
Definition numbering (N w : Z) (f : position -> list Z) (n : position -> Z) : Prop :=
  (forall p, wf N p -> 0 <= n p < w) /\
  (forall i, 0 <= i < w -> exists p, wf N p /\ n p = i) /\
  forall p q, wf N p -> wf N q -> (n p < n q <-> listed_before (f p) (f q)) /\ (n p = n q <-> f p = f q).
