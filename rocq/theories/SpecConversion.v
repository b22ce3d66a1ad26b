(** Independent specification of maps of checkers (point -> number). *)
From Verif Require Export SpecGame Conversion.
Open Scope Z_scope.

(** The entries of a HashMap<usize, u8>: each key once, values 0..255. *)
Definition map_entries (l : list (nat * Z)) : Prop := NoDup (map fst l) /\ Forall (fun e => 0 <= snd e <= 255) l.
(** The number of checkers given for point [i]. *)
Definition given (l : list (nat * Z)) (i : nat) : Z := sumZ (map snd (filter (fun e => Nat.eqb (fst e) i) l)).
Definition all_given (l : list (nat * Z)) : Z := sumZ (map snd l).

