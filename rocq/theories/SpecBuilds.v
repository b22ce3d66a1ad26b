(** What it means that a debug build and a release build agree: whenever the debug build gives a value (it was
    not stopped by a panic), the release build gives that very value. *)
From Verif Require Export Base Ubgi.

Definition build_agnostic {A} (f : mode -> res A) : Prop := forall y, f Debug = Ret y -> f Release = Ret y.

(** The same for something computed by a part that is itself built twice: [a] in the debug build, [b] in release. *)
Definition agrees {A} (a b : res A) : Prop := forall y, a = Ret y -> b = Ret y.

(** An engine built twice: the same name, version and options, and the same answers unless the debug one panics. *)
Record engine_agrees {E} (A B : engine E) : Prop := {
  ea_name : forall e, id_name B e = id_name A e;
  ea_version : forall e, id_version B e = id_version A e;
  ea_options : forall e, eng_options B e = eng_options A e;
  ea_ready : forall e, agrees (on_ready A e) (on_ready B e);
  ea_get : forall e k, agrees (eng_get A e k) (eng_get B e k);
  ea_set : forall e k v, agrees (eng_set A e k v) (eng_set B e k v);
  ea_move : forall e g d, agrees (choose_move A e g d) (choose_move B e g d) }.

(** [a] is a first part of [b]. *)
Definition first_part {A} (a b : list A) : Prop := exists c, b = (a ++ c)%list.
