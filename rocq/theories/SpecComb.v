(** Independent specification of binomial and multiset coefficients. *)
From Coq Require Export Factorial.
From Verif Require Export Base.
Open Scope nat_scope.

(** [c] is n over k: n! = c k! (n-k)!, and 0 if k > n. *)
Definition is_binomial (n k : nat) (c : Z) : Prop :=
  (k <= n -> Z.of_nat (fact n) = (c * (Z.of_nat (fact k) * Z.of_nat (fact (n - k))))%Z) /\
  (n < k -> c = 0%Z).

(** [c] is the number of multisets of size k over n >= 1 kinds: (n+k-1)! = c k! (n-1)!. *)
Definition is_multiset (n k : nat) (c : Z) : Prop :=
  Z.of_nat (fact (n + k - 1)) = (c * (Z.of_nat (fact k) * Z.of_nat (fact (n - 1))))%Z.
