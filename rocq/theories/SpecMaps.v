(** Specification for the exact part of C51: [from_hash_maps] on all maps, with 8-bit arithmetic. *)
From Coq Require Export Permutation.
From Verif Require Export SpecConversion SpecExact.
Open Scope Z_scope.

(** The board two maps describe: o's checkers on the points of o's map, x's on the others, as 8-bit
    numbers. *)
Definition board_given (x o : list (nat * Z)) (ps : list Z) : Prop :=
  length ps = 26%nat /\
  forall i, (i <= 25)%nat ->
    (In i (map fst o) -> wraps_to (- given o i) (nth i ps 0)) /\
    (~ In i (map fst o) -> wraps_to (given x i) (nth i ps 0)).

(** Every key names a point or a bar. *)
Definition keys_fit (x o : list (nat * Z)) : Prop := forall e, In e x \/ In e o -> (fst e <= 25)%nat.

(** For the macro [pos!]: what is written last for a point counts. *)
Fixpoint last_given (l : list (nat * Z)) (i : nat) : Z :=
  match l with
  | [] => 0
  | (k, v) :: l' => if in_dec Nat.eq_dec i (map fst l') then last_given l' i else if Nat.eq_dec k i then v else 0
  end.
(** How many checkers a side gets in all. *)
Definition total_given (l : list (nat * Z)) : Z := sumZ (map (last_given l) (seq 0 26)).
(** The pairs of the macro: points or bars, with numbers 0..255. *)
Definition written_entries (l : list (nat * Z)) : Prop := Forall (fun e => (fst e <= 25)%nat /\ 0 <= snd e <= 255) l.
(** A HashMap is iterated in some order. *)
Definition some_order (order : list (nat * Z) -> list (nat * Z)) : Prop := forall l, Permutation l (order l).
