(** Independent specification of UBGI options, command lines and session histories. *)
From Coq Require Import Strings.String.
From Verif Require Export SpecText SpecVariants SpecFibs SpecMoveText SpecDice Runtime.
Open Scope Z_scope.

(** ** Options *)

(** The text [raw] denotes the value [v] of the option. *)
Definition denotes (o : option_spec) (raw : str) (v : option_value) : Prop :=
  match o with
  | OInteger _ min max _ _ => exists n, v = OVInt n /\ signed_text (- 2 ^ 63) (2 ^ 63 - 1) raw n /\
      (forall a b, min = Some a -> max = Some b -> a <= n <= b)
  | OBoolean _ _ _ => (raw = lit "true" /\ v = OVBool true) \/ (raw = lit "false" /\ v = OVBool false)
  | OChoice _ choices _ _ => In raw choices /\ v = OVChoice raw
  | OText _ _ _ => v = OVText raw
  end.

(** What a key line should say about an option. *)
Definition described (o : option_spec) : key_line_spec :=
  match o with
  | OInteger key (Some a) (Some b) d minor =>
      {| kl_name := key; kl_key_type := lit "int"; kl_domain := Some (fmt_int a ++ lit ".." ++ fmt_int b);
         kl_default := fmt_int d; kl_minor := minor; kl_description := [] |}
  | OInteger key _ _ d minor =>
      {| kl_name := key; kl_key_type := lit "int"; kl_domain := None; kl_default := fmt_int d; kl_minor := minor; kl_description := [] |}
  | OBoolean key d minor =>
      {| kl_name := key; kl_key_type := lit "bool"; kl_domain := None; kl_default := if d then lit "true" else lit "false";
         kl_minor := minor; kl_description := [] |}
  | OChoice key choices d minor =>
      {| kl_name := key; kl_key_type := lit "enum"; kl_domain := Some (join (lit "|") choices); kl_default := d;
         kl_minor := minor; kl_description := [] |}
  | OText key d minor =>
      {| kl_name := key; kl_key_type := lit "string"; kl_domain := Some (lit "*"); kl_default := d; kl_minor := minor;
         kl_description := [] |}
  end.
(** Its texts are words: not empty and free of blanks. *)
Definition wordy (o : option_spec) : Prop :=
  match o with
  | OInteger key _ _ _ _ => blank_free key
  | OBoolean key _ _ => blank_free key
  | OChoice key choices d _ => blank_free key /\ blank_free (join (lit "|") choices) /\ blank_free d
  | OText key d _ => blank_free key /\ blank_free d
  end.

(** ** Command lines (blanks around a line are ignored) *)
Definition is_line (s : str) (line : str) : Prop := stripped line s.
Definition get_line (line key : str) : Prop := exists r, stripped line (lit "get " ++ r) /\ stripped r key.
(** [set]: the key ends at the first space (32). *)
Definition set_line (line key value : str) : Prop :=
  exists r k, stripped line (lit "set " ++ r) /\ ~ In 32 k /\ stripped k key /\
    ((exists v, r = k ++ lit " " ++ v /\ stripped v value) \/ (r = k /\ value = [])).
Definition gnubgid_line (line id : str) : Prop := exists r, stripped line (lit "position gnubgid " ++ r) /\ stripped r id.
Definition dice_line (line rest : str) : Prop := stripped line (lit "dice " ++ rest).
(** The rest of a [dice] line shows two numbers 1..6. *)
Definition two_dice (rest : str) (a b : nat) : Prop :=
  exists w1 w2, words rest [w1; w2] /\ unsigned_text (2 ^ 64 - 1) w1 (Z.of_nat a) /\ unsigned_text (2 ^ 64 - 1) w2 (Z.of_nat b) /\
  (1 <= a <= 6)%nat /\ (1 <= b <= 6)%nat.
Definition go_line (line : str) : Prop := is_line (lit "go") line \/ is_line (lit "go chequer") line.
(** Any line that begins with "position ". *)
Definition position_line (line : str) : Prop := exists r, stripped line (lit "position " ++ r).
Definition known_line (line : str) : Prop :=
  (exists s, In s [lit "ubgi"; lit "isready"; lit "newgame"; lit "keys"; lit "go"; lit "go chequer"; lit "go cube";
                   lit "go turn"; lit "quit"] /\ is_line s line) \/
  (exists p r, In p [lit "get "; lit "set "; lit "position "; lit "dice "] /\ stripped line (p ++ r)).

(** ** Histories: the lines read so far with the replies to each, oldest first *)
Definition history : Type := list (str * list str).

(** [reaches m A e0 h e st]: reading the lines of [h] one after the other, starting a session with the
    engine in state [e0], gave the replies in [h] and led to engine state [e] and session [st]. *)
Inductive reaches {E} (m : mode) (A : engine E) (e0 : E) : history -> E -> session -> Prop :=
| reaches_start : reaches m A e0 [] e0 (session_new A e0)
| reaches_more h e st line e' st' out q : reaches m A e0 h e st ->
    session_step m A e st line = Ret (e', st', out, q) -> reaches m A e0 (h ++ [(line, out)]) e' st'.

(** The last event counts: [sets h line reply a] says that this line with this reply, after history
    [h], sets the quantity to [a]. *)
Inductive last_event {A} (init : A) (sets : history -> str -> list str -> A -> Prop) : history -> A -> Prop :=
| last_init : last_event init sets [] init
| last_set h line out a : sets h line out a -> last_event init sets (h ++ [(line, out)]) a
| last_keep h line out a : last_event init sets h a -> (forall b, ~ sets h line out b) ->
    last_event init sets (h ++ [(line, out)]) a.

(** The variant: "set game.variant <name>", silently accepted. *)
Definition names_variant (t : str) (k : variant) : Prop := spells t (variant_display k).
Definition sets_variant (h : history) (line : str) (out : list str) (k : variant) : Prop :=
  out = [] /\ exists t, set_line line (lit "game.variant") t /\ names_variant t k.
Definition variant_after : history -> variant -> Prop := last_event Backgammon sets_variant.

(** The position: a new variant or "newgame" sets up the start position, "position gnubgid" an ID. *)
Definition sets_position (m : mode) (h : history) (line : str) (out : list str) (p : vpos) : Prop :=
  out = [] /\
  ((exists k, sets_variant h line out k /\ p = start_position k) \/
   (is_line (lit "newgame") line /\ exists k, variant_after h k /\ p = start_position k) \/
   (exists id k, gnubgid_line line id /\ variant_after h k /\ gnuid_decode m k id = Ret (inr p))).
Definition position_after (m : mode) : history -> vpos -> Prop := last_event (start_position Backgammon) (sets_position m).

(** The dice: "dice a b" sets them, "newgame" takes them away. *)
Definition sets_dice (h : history) (line : str) (out : list str) (d : option dice) : Prop :=
  (is_line (lit "newgame") line /\ d = None) \/
  (exists r a b d', dice_line line r /\ two_dice r a b /\ SpecDice.shows d' a b = true /\ d = Some d').
Definition dice_after : history -> option dice -> Prop := last_event None sets_dice.

(** Options: the first declaration of a key says which values it takes, the last one its default. *)
Definition declared (os : list option_spec) (key : str) (o : option_spec) : Prop :=
  exists a b, os = a ++ o :: b /\ spec_key o = key /\ Forall (fun o' => spec_key o' <> key) a.
Definition default_of (os : list option_spec) (key : str) (o : option_spec) : Prop :=
  exists a b, os = a ++ o :: b /\ spec_key o = key /\ Forall (fun o' => spec_key o' <> key) b.
Definition sets_option (os : list option_spec) (key : str) (h : history) (line : str) (out : list str) (v : option_value) : Prop :=
  out = [] /\ exists o t, set_line line key t /\ declared os key o /\ denotes o t v.
Definition value_after (os : list option_spec) (key : str) (o : option_spec) : history -> option_value -> Prop :=
  last_event (default_value o) (sets_option os key).

(** An error reply. *)
Definition is_error (reply : str) : Prop := exists t, reply = lit "error " ++ t.

(** The reply when the engine refuses a value. *)
Definition refused (key : str) (er : ubgi_error) : str :=
  match er with
  | Unsupported _ => lit "error unsupported key"
  | BadValue [] => lit "error bad_value " ++ key
  | BadValue d => lit "error bad_value " ++ d
  | BadState d => lit "error bad_state set " ++ d
  end.

(** The lines of the input that are read: up to the first "quit" or read error. *)
Inductive read_lines : list (option str) -> list str -> Prop :=
| read_end : read_lines [] []
| read_failed rest : read_lines (None :: rest) []
| read_quit line rest : is_line (lit "quit") line -> read_lines (Some line :: rest) [line]
| read_more line rest ls : ~ is_line (lit "quit") line -> read_lines rest ls -> read_lines (Some line :: rest) (line :: ls).

(** Engines that never panic. *)
Definition never_panics {E} (A : engine E) : Prop :=
  (forall e, exists r, on_ready A e = Ret r) /\ (forall e k, exists r, eng_get A e k = Ret r) /\
  (forall e k v, exists r, eng_set A e k v = Ret r) /\ (forall e g d, exists r, choose_move A e g d = Ret r).
