(** Model of /repo/src/engine_spec.rs. *)
From Coq Require Import Strings.String.
From Verif Require Export Str Err.
Open Scope Z_scope.

(** [Ord for String]: lexicographic on UTF-8 bytes, which is the order of the scalar values.
    Standard library, not a file of /repo. *)
Fixpoint str_cmp (a b : str) : comparison :=
  match a, b with
  | [], [] => Eq
  | [], _ :: _ => Lt
  | _ :: _, [] => Gt
  | x :: a', y :: b' => match x ?= y with Eq => str_cmp a' b' | c => c end
  end.

(** [BTreeMap<String, String>]: its bindings in increasing order of keys.  Standard library, not a
    file of /repo; only [new], [insert], [get] and iteration are used. *)
Definition btree : Type := list (str * str).
(** [BTreeMap::insert] (engine_spec.rs:46). *)
Fixpoint btree_insert (k v : str) (m : btree) : btree :=
  match m with
  | [] => [(k, v)]
  | (k', v') :: m' =>
      match str_cmp k k' with
      | Lt => (k, v) :: m
      | Eq => (k', v) :: m'
      | Gt => (k', v') :: btree_insert k v m'
      end
  end.
(** [BTreeMap::get] (engine_spec.rs:64, 67). *)
Fixpoint btree_get (k : str) (m : btree) : option str :=
  match m with
  | [] => None
  | (k', v') :: m' => if str_eqb k k' then Some v' else btree_get k m'
  end.

(** engine_spec.rs:3-9: [EngineSpecError]. *)
Inductive engine_spec_error : Type := InvalidSpec (s : str) | InvalidOverride (part spec : str).

(** engine_spec.rs:11-16: [EngineSpec]. *)
Record engine_spec : Type := { es_alias : str; es_version : option str; es_options : btree }.

(** engine_spec.rs:83-90: [parse_alias_version]. *)
Definition parse_alias_version (head : str) : str * option str :=
  match split_once (chr "@") head with
  | Some (alias, version) =>
      if nonempty (trim version) then (trim alias, Some (trim version)) else (trim head, None)
  | None => (trim head, None)
  end.

(** engine_spec.rs:30-47: one round of the loop over the overrides. *)
Definition override_step (spec : str) (options : btree) (part : str) : engine_spec_error + btree :=
  let p := trim part in
  if nonempty p then
    match split_once (chr "=") p with
    | None => inl (InvalidOverride p spec)
    | Some (k, v) =>
        let key := if starts_with (lit "engine.") (trim k) then trim k else lit "engine." ++ trim k in
        inr (btree_insert key (trim v) options)
    end
  else inr options.

(** engine_spec.rs:18-55: [parse_engine_spec]. *)
Definition parse_engine_spec (spec : str) : engine_spec_error + engine_spec :=
  let '(head, overrides_raw) :=
    match split_once (chr ":") spec with
    | Some (a, b) => (trim a, Some (trim b))
    | None => (trim spec, None)
    end in
  let '(alias, version) := parse_alias_version head in
  if nonempty alias then
    options <-! match overrides_raw with
                | Some raw =>
                    if nonempty raw then pfold (override_step spec) (split_on (chr ",") raw) [] else inr []
                | None => inr []
                end ;;
    inr {| es_alias := alias; es_version := version; es_options := options |}
  else inl (InvalidSpec spec).

(** engine_spec.rs:57-81: [format_engine_spec]. *)
Definition shown_option (b : str * str) : str :=
  trim_start_matches (lit "engine.") (fst b) ++ lit "=" ++ snd b.
(** engine_spec.rs:57-81: [format_engine_spec]. *)
Definition format_engine_spec (spec : engine_spec) : str :=
  let base :=
    match es_version spec with
    | Some v => es_alias spec ++ lit "@" ++ v
    | None => es_alias spec
    end in
  let shown :=
    match btree_get (lit "engine.ply") (es_options spec) with
    | Some v => [lit "ply=" ++ v]
    | None => []
    end ++
    match btree_get (lit "engine.top_k") (es_options spec) with
    | Some v => [lit "top_k=" ++ v]
    | None => []
    end ++
    map shown_option
      (filter (fun b => negb (str_eqb (fst b) (lit "engine.ply") || str_eqb (fst b) (lit "engine.top_k")))
         (es_options spec)) in
  match shown with
  | [] => base
  | _ => base ++ lit ":" ++ join (lit ",") shown
  end.
