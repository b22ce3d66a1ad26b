(** Rust [Result] with the error on the left, alone and inside a call that may panic; the notations
    model the [?] operator.  Language layer, not a file of /repo. *)
From Verif Require Export Base.

(** [r?] on a [Result] (e.g. xgid.rs:108-113). *)
Definition pbind {E A B} (r : E + A) (f : A -> E + B) : E + B :=
  match r with inl e => inl e | inr a => f a end.
Notation "x <-! a ;; b" := (pbind a (fun x => b))
  (at level 61, a at next level, right associativity) : rust_scope.
Notation "' p <-! a ;; b" := (pbind a (fun p => b))
  (at level 61, p pattern, a at next level, right associativity) : rust_scope.

(** [r?] on a [Result] whose computation may panic (e.g. fibs.rs:106-108, ubgi/runtime.rs). *)
Definition ebind {E A B} (r : res (E + A)) (f : A -> res (E + B)) : res (E + B) :=
  bind r (fun x => match x with inl e => Ret (inl e) | inr a => f a end).
Notation "x <-? a ;; b" := (ebind a (fun x => b))
  (at level 61, a at next level, right associativity) : rust_scope.
Notation "' p <-? a ;; b" := (ebind a (fun p => b))
  (at level 61, p pattern, a at next level, right associativity) : rust_scope.

(** [ok_or(e)]. *)
Definition ok_or {E A} (e : E) (o : option A) : E + A :=
  match o with Some a => inr a | None => inl e end.

(** A value returned early or kept: [Ok(x)] / [Err(e)] of a call that cannot panic. *)
Definition lift {E A} (r : E + A) : res (E + A) := Ret r.

(** [for a in l { s = f(s, a)? }]. *)
Fixpoint efold {E A S} (f : S -> A -> res (E + S)) (l : list A) (s : S) : res (E + S) :=
  match l with
  | [] => Ret (inr s)
  | a :: l' => s' <-? f s a ;; efold f l' s'
  end.
(** The same for bodies that cannot panic (e.g. fibs.rs:81-90). *)
Fixpoint pfold {E A S} (f : S -> A -> E + S) (l : list A) (s : S) : E + S :=
  match l with
  | [] => inr s
  | a :: l' => s' <-! f s a ;; pfold f l' s'
  end.
(** [iter.map(f).collect::<Result<Vec<_>, _>>()]. *)
Fixpoint pmap {E A B} (f : A -> E + B) (l : list A) : E + list B :=
  match l with
  | [] => inr []
  | a :: l' => x <-! f a ;; y <-! pmap f l' ;; inr (x :: y)
  end.
(** The same for closures that may panic. *)
Fixpoint emap {E A B} (f : A -> res (E + B)) (l : list A) : res (E + list B) :=
  match l with
  | [] => Ret (inr [])
  | a :: l' => x <-? f a ;; y <-? emap f l' ;; Ret (inr (x :: y))
  end.
