(** Model of the provided methods of the trait [UbgiEngine] and of the error constructors
    (/repo/src/ubgi.rs). *)
From Coq Require Import Strings.String.
From Verif Require Export Ubgi.
Open Scope Z_scope.

(** ubgi.rs:59-61: [UbgiError::unsupported]. *)
Definition err_unsupported (msg : str) : ubgi_error := Unsupported msg.
(** ubgi.rs:63-65: [UbgiError::bad_value]. *)
Definition err_bad_value (msg : str) : ubgi_error := BadValue msg.
(** ubgi.rs:67-69: [UbgiError::bad_state]. *)
Definition err_bad_state (msg : str) : ubgi_error := BadState msg.
(** ubgi.rs:72-76: [From<String>]. *)
Definition err_from_string (value : str) : ubgi_error := BadState value.
(** ubgi.rs:319-321: the provided [on_ready]. *)
Definition provided_on_ready {E} (e : E) : res (E * (ubgi_error + unit)) := Ret (e, inr tt).
(** ubgi.rs:322-324: the provided [options]. *)
Definition provided_options {E} (e : E) : list option_spec := [].
(** ubgi.rs:325-327: the provided [get]. *)
Definition provided_get {E} (e : E) (key : str) : res (option option_value) := Ret None.
(** ubgi.rs:328-330: the provided [set]. *)
Definition provided_set {E} (e : E) (key : str) (value : option_value) : res (E * (ubgi_error + unit)) :=
  Ret (e, inl (err_unsupported (lit "key"))).

(** ubgi.rs:316-332: an engine that only writes the three required methods. *)
Definition minimal_engine {E} (name version : E -> str)
    (choose : E -> game -> dice -> res (E * (ubgi_error + list move_step))) : engine E :=
  {| id_name := name; id_version := version; on_ready := provided_on_ready; eng_options := provided_options;
     eng_get := provided_get; eng_set := provided_set; choose_move := choose |}.
