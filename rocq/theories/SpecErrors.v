(** Independent specification of which error a bad text is answered with. *)
From Coq Require Import Strings.String.
From Verif Require Export SpecXgid SpecFibs SpecGnuid SpecEngine SpecUbgi SpecWritten Fibs Gnuid MoveText Game.
Open Scope Z_scope.

(** ** Full XGIDs *)

(** The fields of a text: blanks around it and a leading "XGID=" do not count, the rest is cut at ':'. *)
Definition xgid_fields (s : str) (fs : list str) : Prop :=
  exists t u, stripped s t /\ (t = lit "XGID=" ++ u \/ (t = u /\ forall v, t <> lit "XGID=" ++ v)) /\
  u = join (lit ":") fs /\ fs <> [] /\ Forall (fun f => ~ In 58 f) fs.
(** What the ten fields must look like. *)
Definition field_ok (i : nat) (f : str) : Prop :=
  match i with
  | 0 => List.length f = 26%nat /\ Forall board_char f
  | 1 | 3 | 9 => exists v, unsigned_text 255 f v
  | 2 | 4 | 5 => exists v, unsigned_text 65535 f v
  | 6 => exists d, dice_text f d
  | 7 => f = lit "0" \/ f = lit "1"
  | _ => exists v, signed_text (-1) 1 f v
  end%nat.
(** The board, the dice, the move flag and the cube owner are named in the error, the numbers are not. *)
Definition field_error (i : nat) : xgid_error :=
  match i with
  | 0 => XgidInvalidField (lit "board")
  | 6 => XgidInvalidField (lit "dice")
  | 7 => XgidInvalidField (lit "move_flag")
  | 8 => XgidInvalidField (lit "cube_owner")
  | _ => XgidInvalidPayload
  end%nat.
(** The first thing that is wrong, from left to right: a field is missing, a field is bad, or there are
    more than ten. *)
Definition xgid_complaint (fs : list str) (e : xgid_error) : Prop :=
  exists i, (i <= 10)%nat /\ (forall j, (j < i)%nat -> exists f, nth_error fs j = Some f /\ field_ok j f) /\
  (((i < 10)%nat /\ nth_error fs i = None /\ e = XgidInvalidPayload) \/
   ((i < 10)%nat /\ (exists f, nth_error fs i = Some f /\ ~ field_ok i f) /\ e = field_error i) \/
   (i = 10%nat /\ (10 < List.length fs)%nat /\ e = XgidInvalidPayload)).

(** ** FIBS boards *)

(** The four values a text gives, if its fields are in order. *)
Definition fibs_values (s t bar off points : str) : Prop :=
  exists fs es, s = join (lit ";") fs /\ Forall2 field_text fs es /\
  last_value (lit "turn") es t /\ last_value (lit "bar") es bar /\
  last_value (lit "off") es off /\ last_value (lit "points") es points.
Definition no_counts (s : str) : Prop := forall x o, ~ counts_text s x o.
(** The first thing that is wrong with a text that is not a board: fields, bar, off, points 24 to 1. *)
Inductive fibs_complaint (s : str) : fibs_error -> Prop :=
| bad_fields : (forall t bar off points, ~ fibs_values s t bar off points) -> fibs_complaint s FibsInvalidPayload
| bad_bar t bar off points : fibs_values s t bar off points -> no_counts bar ->
    fibs_complaint s (FibsInvalidField (lit "count"))
| bad_off t bar off points x o : fibs_values s t bar off points -> counts_text bar x o -> no_counts off ->
    fibs_complaint s (FibsInvalidField (lit "count"))
| bad_point t bar off xb ob xo oo us w ws ns :
    fibs_values s t bar off (join (lit ",") (us ++ w :: ws)) -> counts_text bar xb ob -> counts_text off xo oo ->
    Forall (fun w => ~ In 44 w) (us ++ w :: ws) -> (List.length us < 24)%nat -> Forall2 point_text us ns ->
    (forall n, ~ point_text w n) -> fibs_complaint s (FibsInvalidField (lit "points"))
| bad_number t bar off xb ob xo oo us ws ns :
    fibs_values s t bar off (join (lit ",") (us ++ ws)) -> counts_text bar xb ob -> counts_text off xo oo ->
    Forall (fun w => ~ In 44 w) (us ++ ws) -> us <> [] -> Forall2 point_text us ns ->
    ((List.length us < 24)%nat /\ ws = []) \/ (List.length us = 24%nat /\ ws <> []) ->
    fibs_complaint s FibsInvalidPayload.

(** ** GNU IDs: characters that spell whole bytes when "==" is put behind them *)
Definition spells_bytes (id : str) : Prop :=
  (exists n, List.length id = 4 * n + 2)%nat /\ Forall base64_char id /\ In (last id 0) [65; 81; 103; 119].

(** ** Engine specs *)
Definition spec_parts (s h : str) (ws : list str) : Prop :=
  ~ In 58 h /\ ((s = h /\ ws = []) \/ (s = h ++ lit ":" ++ join (lit ",") ws /\ ws <> [])) /\ Forall (fun w => ~ In 44 w) ws.
Inductive spec_complaint (s : str) : engine_spec_error -> Prop :=
| no_alias h ws version : spec_parts s h ws -> head_text h [] version -> spec_complaint s (InvalidSpec s)
| bad_override h us w ws alias version es p : spec_parts s h (us ++ w :: ws) -> head_text h alias version -> alias <> [] ->
    overrides_text us es -> stripped w p -> p <> [] -> ~ In 61 p -> spec_complaint s (InvalidOverride p s).

(** ** Values of options *)
Definition is_i64 (raw : str) (n : Z) : Prop := signed_text (- 2 ^ 63) (2 ^ 63 - 1) raw n.
Inductive value_complaint (raw : str) : option_spec -> str -> Prop :=
| not_a_number key min max d minor : (forall n, ~ is_i64 raw n) ->
    value_complaint raw (OInteger key min max d minor) (lit "expected int, got '" ++ raw ++ lit "'")
| out_of_range key a b d minor n ta tb : is_i64 raw n -> (n < a \/ b < n) -> integer ta a -> integer tb b ->
    value_complaint raw (OInteger key (Some a) (Some b) d minor) (lit "must be in range " ++ ta ++ lit ".." ++ tb)
| not_a_bool key d minor : raw <> lit "true" -> raw <> lit "false" ->
    value_complaint raw (OBoolean key d minor) (lit "expected bool true|false, got '" ++ raw ++ lit "'")
| not_a_choice key choices d minor : ~ In raw choices ->
    value_complaint raw (OChoice key choices d minor) (lit "expected one of [" ++ join (lit "|") choices ++ lit "]").

(** ** The messages of the errors that are answered *)
Definition xgid_messages : list (xgid_error * str) := [
  (XgidInvalidPayload, lit "invalid XGID payload");
  (XgidInvalidField (lit "board"), lit "invalid XGID field 'board'");
  (XgidInvalidField (lit "dice"), lit "invalid XGID field 'dice'");
  (XgidInvalidField (lit "move_flag"), lit "invalid XGID field 'move_flag'");
  (XgidInvalidField (lit "cube_owner"), lit "invalid XGID field 'cube_owner'");
  (XgidInvalidPosition, lit "invalid XGID position")].
Definition fibs_messages : list (fibs_error * str) := [
  (FibsInvalidPayload, lit "invalid FIBS payload");
  (FibsInvalidField (lit "count"), lit "invalid FIBS field 'count'");
  (FibsInvalidField (lit "points"), lit "invalid FIBS field 'points'");
  (FibsInvalidField (lit "turn"), lit "invalid FIBS field 'turn'");
  (FibsInvalidPosition, lit "invalid FIBS position")].
Definition gnuid_messages : list (gnuid_error * str) := [
  (GnuidInvalidPayload, lit "invalid GNUID payload"); (GnuidKeyLength, lit "invalid GNUID field 'key_length'")].
Definition game_messages : list (game_error * str) := [
  (Game.VariantMismatch, lit "position variant does not match game variant");
  (LegalMoveIndexOutOfBounds, lit "legal move index out of bounds");
  (PolicyIndexOutOfBounds, lit "policy returned out-of-bounds legal move index")].
Definition move_messages : list (move_text_error * str) := [
  (MoveText.VariantMismatch, lit "variant mismatch while encoding move");
  (EncodeTargetNotReachable, lit "failed to derive move text from legal child")].
