(** Machine layer shared by all model files: panics, build profiles, fixed-width
    integers, arrays and loops.  This file models Rust language semantics, not a
    particular file of /repo; every later model file is written with it. *)
From Coq Require Export List Arith ZArith Lia Bool.
Export ListNotations.
#[global] Set Implicit Arguments.

(** Rust panics.  [Overflow]: arithmetic overflow check (debug builds);
    [IndexOOB]: array/slice index out of range; [AssertFail]: failed
    [debug_assert!]; [Unwrapped]: [unwrap]/[expect] on None/Err or explicit
    [panic!]; [Todo]: [todo!()]. *)
Inductive panic : Type := Overflow | IndexOOB | AssertFail | Unwrapped | Todo.

(** Outcome of a Rust call: a value or a panic. *)
Inductive res (A : Type) : Type := Ret (a : A) | Panic (k : panic).
Arguments Ret {A} _.
Arguments Panic {A} _.

(** Language layer: sequencing of Rust calls (a panic stops the rest; cf. any body in position.rs:428-443). *)
Definition bind {A B} (r : res A) (f : A -> res B) : res B :=
  match r with Ret a => f a | Panic k => Panic k end.

Declare Scope rust_scope.
Delimit Scope rust_scope with rust.
Notation "x <- a ;; b" := (bind a (fun x => b))
  (at level 61, a at next level, right associativity) : rust_scope.
Notation "' p <- a ;; b" := (bind a (fun p => b))
  (at level 61, p pattern, a at next level, right associativity) : rust_scope.
Notation "a ;;; b" := (bind a (fun _ => b))
  (at level 61, right associativity) : rust_scope.
#[global] Open Scope rust_scope.

(** Cargo profile: [Debug] has overflow checks and debug assertions. *)
Inductive mode : Type := Debug | Release.

(** [debug_assert!(b)]. *)
Definition debug_assert (m : mode) (b : bool) : res unit :=
  match m with
  | Debug => if b then Ret tt else Panic AssertFail
  | Release => Ret tt
  end.

Open Scope Z_scope.

(** Result [z] of an [i8] operation: in range, or overflow. *)
Definition in_i8 (z : Z) : bool := (-128 <=? z) && (z <=? 127).
(** Two's complement wrap to [i8] (release arithmetic, e.g. position.rs:361-362). *)
Definition wrap_i8 (z : Z) : Z := (z + 128) mod 256 - 128.
(** An [i8] operation with exact result [z] (e.g. position.rs:429, 434, 437): debug panics, release wraps. *)
Definition i8 (m : mode) (z : Z) : res Z :=
  if in_i8 z then Ret z
  else match m with Debug => Panic Overflow | Release => Ret (wrap_i8 z) end.

(** Result [z] of a [u8] operation. *)
Definition in_u8 (z : Z) : bool := (0 <=? z) && (z <=? 255).
(** Wrap to [u8] (release arithmetic, e.g. gnuid.rs:150-151). *)
Definition wrap_u8 (z : Z) : Z := z mod 256.
(** A [u8] operation with exact result [z] (e.g. position.rs:441, gnuid.rs:150-151). *)
Definition u8 (m : mode) (z : Z) : res Z :=
  if in_u8 z then Ret z
  else match m with Debug => Panic Overflow | Release => Ret (wrap_u8 z) end.

(** Result [z] of a [usize] (64 bit) or [u64] operation. *)
Definition in_u64 (z : Z) : bool := (0 <=? z) && (z <? 2 ^ 64).
(** Wrap to 64 bits (release arithmetic, e.g. utils.rs:7). *)
Definition wrap_u64 (z : Z) : Z := z mod 2 ^ 64.
(** A [usize]/[u64] operation with exact result [z] (e.g. utils.rs:7, position.rs:343). *)
Definition u64 (m : mode) (z : Z) : res Z :=
  if in_u64 z then Ret z
  else match m with Debug => Panic Overflow | Release => Ret (wrap_u64 z) end.

(** Casts never panic: [x as i8], [x as u8]. *)
Definition as_i8 (z : Z) : Z := wrap_i8 z.
(** [x as u8] (e.g. position.rs:221, 227). *)
Definition as_u8 (z : Z) : Z := wrap_u8 z.

(** Array indexing [a[i]] and assignment [a[i] = v]. *)
Definition index {A} (l : list A) (i : nat) : res A :=
  match nth_error l i with Some v => Ret v | None => Panic IndexOOB end.

(** The array after [a[i] = v] (e.g. position.rs:429-437). *)
Fixpoint upd {A} (l : list A) (i : nat) (v : A) : list A :=
  match l, i with
  | [], _ => []
  | _ :: l', O => v :: l'
  | a :: l', S i' => a :: upd l' i' v
  end.

(** [a[i] = v] with its bounds check (e.g. position.rs:429-437). *)
Definition assign {A} (l : list A) (i : nat) (v : A) : res (list A) :=
  if (i <? length l)%nat then Ret (upd l i v) else Panic IndexOOB.

(** [usize] subtraction used for indices.  On underflow a debug build panics with
    overflow; a release build wraps to a value above 2^63, and every use in the
    modelled code indexes a 26-element array with it, so it panics as well. *)
Definition usub (m : mode) (a b : nat) : res nat :=
  if (b <=? a)%nat then Ret (a - b)%nat
  else match m with Debug => Panic Overflow | Release => Panic IndexOOB end.

(** The half-open range [a..b]. *)
Definition range (a b : nat) : list nat := seq a (b - a).

(** [for i in l { .. push .. }]: the pushes of all iterations, in order. *)
Fixpoint mflat_map {A B} (f : A -> res (list B)) (l : list A) : res (list B) :=
  match l with
  | [] => Ret []
  | a :: l' => x <- f a ;; y <- mflat_map f l' ;; Ret (x ++ y)
  end.

(** [iter.map(f).collect()] with a closure that may panic (e.g. position.rs:304-306, fibs.rs:58-70). *)
Fixpoint mmap {A B} (f : A -> res B) (l : list A) : res (list B) :=
  match l with
  | [] => Ret []
  | a :: l' => x <- f a ;; y <- mmap f l' ;; Ret (x :: y)
  end.

(** [for a in l { s = f(s, a) }]. *)
Fixpoint mfold {A S} (f : S -> A -> res S) (l : list A) (s : S) : res S :=
  match l with
  | [] => Ret s
  | a :: l' => s' <- f s a ;; mfold f l' s'
  end.

(** [iter.rposition(f)] (index of the last element satisfying [f]) and
    [iter.position(f)]. *)
Fixpoint position_of {A} (f : A -> bool) (l : list A) : option nat :=
  match l with
  | [] => None
  | a :: l' => if f a then Some O else option_map S (position_of f l')
  end.
(** [iter.rposition(f)] (position.rs:273-277, 503; double_moves.rs:131). *)
Fixpoint rposition_of {A} (f : A -> bool) (l : list A) : option nat :=
  match l with
  | [] => None
  | a :: l' => match rposition_of f l' with
               | Some i => Some (S i)
               | None => if f a then Some O else None
               end
  end.

(** [iter.sum::<i8>()]: left-to-right i8 additions starting from 0. *)
Definition sum_i8 (m : mode) (l : list Z) : res Z :=
  mfold (fun s z => i8 m (s + z)) l 0.

(** [&a[lo..hi]] for [lo <= hi <= a.len()]. *)
Definition slice {A} (l : list A) (lo hi : nat) : list A := firstn (hi - lo) (skipn lo l).
