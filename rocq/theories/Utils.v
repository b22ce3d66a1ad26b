(** Model of /repo/src/utils.rs and of [dbhash] (position.rs:315-344). *)
From Verif Require Export Position.
Open Scope Z_scope.

(** utils.rs:1-9: [comb]; usize arithmetic.  ([n - 1] and [k - 1] cannot underflow.)  The
    exponential running time is not modelled. *)
Fixpoint comb (m : mode) (n k : nat) : res Z :=
  match n with
  | O => Ret 0
  | S n' =>
      match k with
      | O => Ret 1
      | S k' => if (n =? k)%nat then Ret 1
                else if (n <? k)%nat then Ret 0
                else a <- comb m n' k' ;; b <- comb m n' k ;; u64 m (a + b)
      end
  end.

(** utils.rs:11-13: [mcomb].  [0 + 0 - 1] underflows; in a release build it is usize::MAX and
    [comb(usize::MAX, 0)] is 1. [n + k] is assumed to fit a usize. *)
Definition mcomb (m : mode) (n k : nat) : res Z :=
  match (n + k)%nat with
  | O => match m with Debug => Panic Overflow | Release => Ret 1 end
  | S j => comb m j k
  end.

(** [a - b] on usize values held in Z (position.rs:333-334). *)
Definition zsub (m : mode) (a b : Z) : res Z := u64 m (a - b).

(** position.rs:319-328, 336-341: the contribution [if remaining > 0 { mcomb(c, remaining - 1) }]. *)
Definition dbh_term (m : mode) (c : nat) (remaining : Z) : res Z :=
  if 0 <? remaining then mcomb m c (Z.to_nat (remaining - 1)) else Ret 0.

(** position.rs:329-342: one iteration of the loop; state (x_remaining, o_remaining,
    x_index, o_index). *)
Definition dbh_step (m : mode) (p : position) (s : Z * Z * Z * Z) (i : nat)
  : res (Z * Z * Z * Z) :=
  let '(xr, or, xi, oi) := s in
  n <- pip p i ;;
  '(xr, or) <- (if n <? 0 then o <- zsub m or (- n) ;; Ret (xr, o)
                else if 0 <? n then x <- zsub m xr n ;; Ret (x, or)
                else Ret (xr, or)) ;;
  oi <- (if 0 <? or then t <- mcomb m (26 - i) (Z.to_nat (or - 1)) ;; u64 m (oi + t) else Ret oi) ;;
  xi <- (if 0 <? xr then t <- mcomb m (26 - i) (Z.to_nat (xr - 1)) ;; u64 m (xi + t) else Ret xi) ;;
  Ret (xr, or, xi, oi).

(** position.rs:315-344: [dbhash]. *)
Definition dbhash (m : mode) (N : Z) (p : position) : res Z :=
  xr <- u8 m (N - x_off p) ;;
  or <- u8 m (N - o_off p) ;;
  xi <- dbh_term m 26 xr ;;
  oi <- dbh_term m 26 or ;;
  '(_, _, xi, oi) <- mfold (dbh_step m p) (range 1 25) (xr, or, xi, oi) ;;
  c <- mcomb m 26 (Z.to_nat N) ;;
  h <- u64 m (xi * c) ;;
  u64 m (h + oi).
