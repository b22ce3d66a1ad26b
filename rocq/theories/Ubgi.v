(** Model of /repo/src/ubgi.rs. *)
From Coq Require Import Strings.String.
From Verif Require Export Game MoveText.
Open Scope Z_scope.

(** ubgi.rs:8-32: [OptionSpec]. *)
Inductive option_spec : Type :=
| OInteger (key : str) (min max : option Z) (default : Z) (minor : bool)
| OBoolean (key : str) (default : bool) (minor : bool)
| OChoice (key : str) (choices : list str) (default : str) (minor : bool)
| OText (key : str) (default : str) (minor : bool).

(** ubgi.rs:34-40: [OptionValue]. *)
Inductive option_value : Type := OVInt (v : Z) | OVBool (b : bool) | OVChoice (s : str) | OVText (s : str).

(** ubgi.rs:42-47: [UbgiError]; 78-86: [Display]. *)
Inductive ubgi_error : Type := Unsupported (msg : str) | BadValue (msg : str) | BadState (msg : str).
(** ubgi.rs:78-86: [Display] of [UbgiError]. *)
Definition ubgi_error_display (e : ubgi_error) : str :=
  match e with Unsupported msg => msg | BadValue msg => msg | BadState msg => msg end.

(** ubgi.rs:52-56: [parse_ubgi_move]. *)
Definition parse_ubgi_move (text : str) : ubgi_error + list move_step :=
  normalized <-! ok_or (BadValue (lit "move.invalid")) (normalize text) ;;
  ok_or (BadValue (lit "move.invalid")) (parse_move_steps normalized).

(** ubgi.rs:88-102: [OptionValue::to_wire]. *)
Definition to_wire (v : option_value) : str :=
  match v with
  | OVInt v => fmt_int v
  | OVBool b => if b then lit "true" else lit "false"
  | OVChoice s => s
  | OVText s => s
  end.

(** ubgi.rs:105-148: the constructors of [OptionSpec]; 150-158: [minor]. *)
Definition opt_integer (key : str) (min max default : Z) : option_spec := OInteger key (Some min) (Some max) default false.
(** ubgi.rs:115-123: [integer_unbounded]. *)
Definition opt_integer_unbounded (key : str) (default : Z) : option_spec := OInteger key None None default false.
(** ubgi.rs:125-131: [boolean]. *)
Definition opt_boolean (key : str) (default : bool) : option_spec := OBoolean key default false.
(** ubgi.rs:133-140: [choice]. *)
Definition opt_choice (key : str) (choices : list str) (default : str) : option_spec := OChoice key choices default false.
(** ubgi.rs:142-148: [text]. *)
Definition opt_text (key default : str) : option_spec := OText key default false.
(** ubgi.rs:150-158: [minor]. *)
Definition opt_minor (s : option_spec) : option_spec :=
  match s with
  | OInteger key min max default _ => OInteger key min max default true
  | OBoolean key default _ => OBoolean key default true
  | OChoice key choices default _ => OChoice key choices default true
  | OText key default _ => OText key default true
  end.

(** ubgi.rs:160-217: [to_key_line]. *)
Definition with_minor (base : str) (minor : bool) : str := if minor then base ++ lit " !" else base.
(** ubgi.rs:160-217: [to_key_line]. *)
Definition to_key_line (s : option_spec) : str :=
  match s with
  | OInteger key min max default minor =>
      let base :=
        match min, max with
        | Some min, Some max =>
            lit "key " ++ key ++ lit " int " ++ fmt_int min ++ lit ".." ++ fmt_int max ++ lit " " ++ fmt_int default
        | _, _ => lit "key " ++ key ++ lit " int " ++ fmt_int default
        end in
      with_minor base minor
  | OBoolean key default minor =>
      with_minor (lit "key " ++ key ++ lit " bool " ++ (if default then lit "true" else lit "false")) minor
  | OChoice key choices default minor =>
      with_minor (lit "key " ++ key ++ lit " enum " ++ join (lit "|") choices ++ lit " " ++ default) minor
  | OText key default minor =>
      with_minor (lit "key " ++ key ++ lit " string * " ++ default) minor
  end.

(** ubgi.rs:219-226: [key]. *)
Definition spec_key (s : option_spec) : str :=
  match s with OInteger key _ _ _ _ => key | OBoolean key _ _ => key | OChoice key _ _ _ => key | OText key _ _ => key end.

(** ubgi.rs:228-235: [default_value]. *)
Definition default_value (s : option_spec) : option_value :=
  match s with
  | OInteger _ _ _ default _ => OVInt default
  | OBoolean _ default _ => OVBool default
  | OChoice _ _ default _ => OVChoice default
  | OText _ default _ => OVText default
  end.

(** ubgi.rs:237-264: [parse_value]. *)
Definition parse_value (s : option_spec) (raw : str) : str + option_value :=
  match s with
  | OInteger _ min max _ _ =>
      v <-! ok_or (lit "expected int, got '" ++ raw ++ lit "'") (parse_i64 raw) ;;
      match min, max with
      | Some min, Some max =>
          if (v <? min) || (max <? v) then inl (lit "must be in range " ++ fmt_int min ++ lit ".." ++ fmt_int max)
          else inr (OVInt v)
      | _, _ => inr (OVInt v)
      end
  | OBoolean _ _ _ =>
      if str_eqb raw (lit "true") then inr (OVBool true)
      else if str_eqb raw (lit "false") then inr (OVBool false)
      else inl (lit "expected bool true|false, got '" ++ raw ++ lit "'")
  | OChoice _ choices _ _ =>
      if existsb (fun c => str_eqb c raw) choices then inr (OVChoice raw)
      else inl (lit "expected one of [" ++ join (lit "|") choices ++ lit "]")
  | OText _ _ _ => inr (OVText raw)
  end.

(** ubgi.rs:267-275: [KeyLineSpec]. *)
Record key_line_spec : Type := {
  kl_name : str; kl_key_type : str; kl_domain : option str; kl_default : str; kl_minor : bool; kl_description : str }.

(** ubgi.rs:312-314: [looks_like_int_domain]. *)
Definition looks_like_int_domain (token : str) : bool := contains (lit "..") token.

(** ubgi.rs:277-310: [parse_key_line]; [parts] is the iterator, [None] an early return. *)
Definition parse_key_line (line : str) : option key_line_spec :=
  match split_ws line with
  | [] => None
  | first :: parts =>
      if negb (str_eqb first (lit "key")) then None
      else
        match parts with
        | name :: key_type :: next :: parts =>
            match
              (if str_eqb key_type (lit "bool") then Some (None, next, parts)
               else if str_eqb key_type (lit "int") && negb (looks_like_int_domain next) then Some (None, next, parts)
               else match parts with
                    | default :: parts => Some (Some next, default, parts)
                    | [] => None
                    end)
            with
            | None => None
            | Some (domain, default, rest) =>
                let '(minor, rest) :=
                  match rest with
                  | w :: rest' => if str_eqb w (lit "!") then (true, rest') else (false, rest)
                  | [] => (false, rest)
                  end in
                Some {| kl_name := name; kl_key_type := key_type; kl_domain := domain; kl_default := default;
                        kl_minor := minor; kl_description := join (lit " ") rest |}
            end
        | _ => None
        end
  end.

(** ubgi.rs:316-332: the trait [UbgiEngine], for an engine with state [E].  Calls may panic.
    Simplifications: [id_name], [id_version] and [options] do not panic, and methods taking [&self]
    have no interior mutability. *)
Record engine (E : Type) : Type := {
  id_name : E -> str;
  id_version : E -> str;
  on_ready : E -> res (E * (ubgi_error + unit));
  eng_options : E -> list option_spec;
  eng_get : E -> str -> res (option option_value);
  eng_set : E -> str -> option_value -> res (E * (ubgi_error + unit));
  choose_move : E -> game -> dice -> res (E * (ubgi_error + list move_step)) }.
Arguments id_name {E} _ _.
Arguments id_version {E} _ _.
Arguments on_ready {E} _ _.
Arguments eng_options {E} _ _.
Arguments eng_get {E} _ _ _.
Arguments eng_set {E} _ _ _ _.
Arguments choose_move {E} _ _ _ _.
