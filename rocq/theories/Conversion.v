(** Model of /repo/src/position/conversion.rs. *)
From Verif Require Export Position.
Open Scope Z_scope.

(** conversion.rs:31-42: [Position::from_hash_maps].  A HashMap<usize, u8> is the list of its entries
    in the order in which they happen to be iterated; the keys of such a list are distinct. *)
Definition from_hash_maps (m : mode) (N : Z) (x o : list (nat * Z)) : res position :=
  ps <- mfold (fun ps '(i, v) => assign ps i (as_i8 v)) x (repeat 0 26) ;;
  ps <- mfold (fun ps '(i, v) =>
          (match m with
           | Debug => w <- index ps i ;; debug_assert m (w =? 0)
           | Release => Ret tt
           end) ;;;
          n <- i8 m (- as_i8 v) ;;
          assign ps i n) o ps ;;
  r <- try_from m N ps ;;
  match r with inl _ => Panic Unwrapped | inr p => Ret p end.

(** [HashMap::insert] (std): a key that is already there gets the new value. *)
Definition hm_insert (h : list (nat * Z)) (k : nat) (v : Z) : list (nat * Z) :=
  (k, v) :: filter (fun e => negb (Nat.eqb (fst e) k)) h.

(** conversion.rs:11-29: the macro [pos!].  The pairs are the written ones after the casts [as usize] and
    [as u8], in the order they are written; [order] is the order in which the maps happen to be iterated. *)
Definition pos_macro (m : mode) (order : list (nat * Z) -> list (nat * Z)) (xs os : list (nat * Z)) : res position :=
  let x := fold_left (fun h '(k, v) => hm_insert h k v) xs [] in
  let o := fold_left (fun h '(k, v) => hm_insert h k v) os [] in
  from_hash_maps m 15 (order x) (order o).
