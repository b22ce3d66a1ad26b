(** Independent specification for property C71: weighted choices. *)
From Coq Require Export Reals.
From Flocq Require Import Core.Raux IEEE754.BinarySingleNaN.
From Verif Require Export Float32.
Open Scope R_scope.

(** The number a float stands for. *)
Definition value (c : f32) : R := B2R c.

(** Chances one can choose with: ordinary numbers, none negative. *)
Definition chance (c : f32) : Prop := is_finite c = true /\ 0 <= value c.

(** Their exact total. *)
Definition total (chances : list f32) : R := fold_right Rplus 0 (map value chances).

(** How many of the million equally likely draws satisfy [P]: the draws are those from [a] to [b - 1]. *)
Definition draws_between (P : Z -> Prop) (a b : Z) : Prop :=
  (0 <= a <= b)%Z /\ (b <= 1000000)%Z /\ forall r, (0 <= r < 1000000)%Z -> (P r <-> (a <= r < b)%Z).
