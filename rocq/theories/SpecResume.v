(** Independent specification for C98: taking up a UBGI session where another one stopped. *)
From Coq Require Import Strings.String.
From Verif Require Export SpecUbgi.
Unset Implicit Arguments.
Open Scope Z_scope.

(** An engine that is no more than its settings: [cur e key] is the value of a setting in state [e]; what the engine
    answers depends on its settings only, and only an accepted [set] changes one, namely the one it names.  Which values
    are accepted does not depend on the other settings. *)
Definition same_settings {E} (cur : E -> str -> option option_value) (e f : E) : Prop := forall key, cur e key = cur f key.
(** The answer of a call, without the engine's new state. *)
Definition answer {E B} (r : res (E * B)) : res B := match r with Ret (_, b) => Ret b | Panic k => Panic k end.
Record is_its_settings {E} (A : engine E) (cur : E -> str -> option option_value) : Prop := {
  its_names : forall e f, same_settings cur e f -> id_name A e = id_name A f /\ id_version A e = id_version A f;
  its_get : forall e f key, same_settings cur e f -> eng_get A e key = eng_get A f key;
  its_ready : forall e f, same_settings cur e f -> answer (on_ready A e) = answer (on_ready A f);
  its_ready_keeps : forall e e' r, on_ready A e = Ret (e', r) -> same_settings cur e' e;
  its_move : forall e f g d, same_settings cur e f -> answer (choose_move A e g d) = answer (choose_move A f g d);
  its_move_keeps : forall e g d e' r, choose_move A e g d = Ret (e', r) -> same_settings cur e' e;
  its_values : forall e f key v, answer (eng_set A e key v) = answer (eng_set A f key v);
  its_set : forall e key v e' u, eng_set A e key v = Ret (e', inr u) ->
    cur e' key = Some v /\ forall key', key' <> key -> cur e' key' = cur e key';
  its_refused : forall e key v e' er, eng_set A e key v = Ret (e', inl er) -> same_settings cur e' e }.

(** The value the last accepted "set" of the history gave to an option. *)
Definition last_given (os : list option_spec) (h : history) (key : str) (v : option_value) : Prop :=
  exists h1 line out h2, h = h1 ++ (line, out) :: h2 /\ sets_option os key h1 line out v /\
    forall line' out' v', In (line', out') h2 -> ~ sets_option os key h1 line' out' v'.

(** The lines that take a session up where the history [h] left it: a "set" for every option that was set, the variant,
    the position (no line if it is the start position; any ID that stands for it otherwise), and the dice if there are
    any. *)
Definition set_text (kv : str * option_value) : str := lit "set " ++ fst kv ++ lit " " ++ to_wire (snd kv).
Definition resumes (m : mode) (os : list option_spec) (h : history) (script : list str) : Prop :=
  exists kvs k p pos ds d,
    script = map set_text kvs ++ [lit "set game.variant " ++ variant_display k] ++ pos ++ ds /\
    (forall key v, In (key, v) kvs <-> key <> lit "game.variant" /\ last_given os h key v) /\
    variant_after h k /\
    position_after m h p /\
    ((pos = [] /\ p = start_position k) \/
     (exists id, pos = [lit "position gnubgid " ++ id] /\ stripped id id /\ gnuid_decode m k id = Ret (inr p))) /\
    dice_after h d /\
    ((ds = [] /\ d = None) \/
     (exists a b d', d = Some d' /\ (1 <= a <= 6)%nat /\ (1 <= b <= 6)%nat /\ SpecDice.shows d' a b = true /\
        ds = [lit "dice " ++ fmt_uint (Z.of_nat a) ++ lit " " ++ fmt_uint (Z.of_nat b)])).

(** Two sessions end alike: with the same panic, or with the same settings, variant, game and dice. *)
Definition ends_alike {E} (cur : E -> str -> option option_value) (r s : res (E * session)) : Prop :=
  match r, s with
  | Ret (e, st), Ret (f, su) => same_settings cur e f /\ s_variant st = s_variant su /\ s_game st = s_game su /\ s_dice st = s_dice su
  | Panic k, Panic k' => k = k'
  | _, _ => False
  end.
