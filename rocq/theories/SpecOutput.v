(** Specification for C83: the stream of lines a session writes. *)
From Coq Require Import Strings.String.
From Verif Require Export SpecUbgi.
Unset Implicit Arguments.
Open Scope Z_scope.

(** A text without a line feed (10). *)
Definition one_line (s : str) : Prop := ~ In 10 s.

(** What is written: every reply followed by a line feed. *)
Definition written (replies : list str) : str := concat (map (fun r => r ++ [10]) replies).

(** All texts the engine hands out are single lines. *)
Definition option_one_line (o : option_spec) : Prop :=
  match o with
  | OInteger key _ _ _ _ => one_line key
  | OBoolean key _ _ => one_line key
  | OChoice key choices default _ => one_line key /\ Forall one_line choices /\ one_line default
  | OText key default _ => one_line key /\ one_line default
  end.
Definition value_one_line (v : option_value) : Prop :=
  match v with OVInt _ | OVBool _ => True | OVChoice s | OVText s => one_line s end.
Definition error_one_line (e : ubgi_error) : Prop :=
  match e with Unsupported s | BadValue s | BadState s => one_line s end.

Record one_line_engine {E} (A : engine E) : Prop := {
  ole_name : forall e, one_line (id_name A e);
  ole_version : forall e, one_line (id_version A e);
  ole_options : forall e, Forall option_one_line (eng_options A e);
  ole_ready : forall e e' er, on_ready A e = Ret (e', inl er) -> error_one_line er;
  ole_get : forall e k v, eng_get A e k = Ret (Some v) -> value_one_line v;
  ole_set : forall e k v e' er, eng_set A e k v = Ret (e', inl er) -> error_one_line er;
  ole_move : forall e g d e' er, choose_move A e g d = Ret (e', inl er) -> error_one_line er }.

(** The kinds of replies: what a reply begins with, or all of it. *)
Definition begins_with (p s : str) : Prop := exists r, s = p ++ r.
Definition known_reply (s : str) : Prop :=
  s = lit "readyok" \/ s = lit "ubgiok" \/
  exists p, In p [lit "id name "; lit "id author "; lit "id version "; lit "proto "; lit "key "; lit "value "; lit "bestmove "; lit "error "] /\
    begins_with p s.

(** A blank line. *)
Definition blank_line (line : str) : Prop := stripped line [].

(** One error line. *)
Definition one_error (out : list str) : Prop := exists t, out = [lit "error " ++ t].
