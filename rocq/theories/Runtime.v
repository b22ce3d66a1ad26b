(** Model of /repo/src/ubgi/runtime.rs. *)
From Coq Require Import Strings.String.
From Verif Require Export Ubgi Gnuid.
Open Scope Z_scope.

(** runtime.rs:10-26: [ProtocolError], [to_line]. *)
Inductive protocol_error : Type :=
| PBadCommand (detail : str) | PBadValue (detail : str) | PBadState (detail : str) | PUnsupported (detail : str).
(** runtime.rs:17-26: [to_line]. *)
Definition to_line (e : protocol_error) : str :=
  match e with
  | PBadCommand detail => lit "error bad_command " ++ detail
  | PBadValue detail => lit "error bad_value " ++ detail
  | PBadState detail => lit "error bad_state " ++ detail
  | PUnsupported detail => lit "error unsupported " ++ detail
  end.

(** runtime.rs:28-44: [Command]. *)
Inductive command : Type :=
| CUbgi | CIsReady | CNewGame | CKeys | CGet (key : str) | CSet (key value : str)
| CPositionGnubgid (id : str) | CPositionXgid | CPositionUnknown | CDice (rest : str)
| CGoChequer | CGoCube | CGoTurn | CQuit | CUnknown.

(** [HashMap<String, OptionValue>] (standard library; runtime.rs:51): only [collect], [insert] and [get] are used, so a
    list of bindings, the latest first, stands for it. *)
Definition values : Type := list (str * option_value).
(** [HashMap::insert] (runtime.rs:51). *)
Definition values_insert (k : str) (v : option_value) (m : values) : values := (k, v) :: m.
(** [HashMap::get] (runtime.rs:51). *)
Fixpoint values_get (k : str) (m : values) : option option_value :=
  match m with
  | [] => None
  | (k', v) :: m' => if str_eqb k k' then Some v else values_get k m'
  end.

(** runtime.rs:46-53: [SessionState]. *)
Record session : Type := {
  s_variant : variant; s_game : game; s_dice : option dice; s_option_specs : list option_spec;
  s_option_values : values; s_variant_key : str }.

(** runtime.rs:56-77: [SessionState::new]. *)
Definition session_new {E} (A : engine E) (e : E) : session :=
  let option_specs := eng_options A e in
  let option_values := fold_left (fun m spec => values_insert (spec_key spec) (default_value spec) m) option_specs [] in
  let variant_enum := join (lit "|") (map variant_display VARIANTS) in
  {| s_variant := Backgammon; s_game := game_new Backgammon; s_dice := None; s_option_specs := option_specs;
     s_option_values := option_values;
     s_variant_key := lit "key game.variant enum " ++ variant_enum ++ lit " backgammon" |}.

(** runtime.rs:102-149: [parse_command]. *)
Definition parse_command (line : str) : command :=
  if str_eqb line (lit "ubgi") then CUbgi
  else if str_eqb line (lit "isready") then CIsReady
  else if str_eqb line (lit "newgame") then CNewGame
  else if str_eqb line (lit "keys") then CKeys
  else match strip_prefix (lit "get ") line with
  | Some key => CGet (trim key)
  | None =>
  match strip_prefix (lit "set ") line with
  | Some rest =>
      match split_once (chr " ") rest with
      | Some (key, value) => CSet (trim key) (trim value)
      | None => CSet (trim rest) (trim (lit ""))
      end
  | None =>
  match strip_prefix (lit "position gnubgid ") line with
  | Some id => CPositionGnubgid (trim id)
  | None =>
  if str_eqb line (lit "position xgid") || starts_with (lit "position xgid ") line then CPositionXgid
  else if starts_with (lit "position ") line then CPositionUnknown
  else match strip_prefix (lit "dice ") line with
  | Some rest => CDice rest
  | None =>
  if str_eqb line (lit "go") || str_eqb line (lit "go chequer") then CGoChequer
  else if str_eqb line (lit "go cube") then CGoCube
  else if str_eqb line (lit "go turn") then CGoTurn
  else if str_eqb line (lit "quit") then CQuit
  else CUnknown
  end end end end.

(** runtime.rs:204-210: [render_key_lines]. *)
Definition render_key_lines (st : session) : list str := s_variant_key st :: map to_key_line (s_option_specs st).

(** runtime.rs:212-223: [handle_get]. *)
Definition handle_get {E} (A : engine E) (e : E) (st : session) (key : str) : res (list str) :=
  if str_eqb key (lit "game.variant") then Ret [lit "value game.variant " ++ variant_display (s_variant st)]
  else match values_get key (s_option_values st) with
       | Some value => Ret [lit "value " ++ key ++ lit " " ++ to_wire value]
       | None =>
           o <- eng_get A e key ;;
           match o with
           | Some value => Ret [lit "value " ++ key ++ lit " " ++ to_wire value]
           | None => Ret [to_line (PUnsupported (lit "key"))]
           end
       end.

(** runtime.rs:262-274: [map_engine_set_error]. *)
Definition map_engine_set_error (err : ubgi_error) (key : str) : protocol_error :=
  match err with
  | Unsupported _ => PUnsupported (lit "key")
  | BadValue detail => if nonempty detail then PBadValue detail else PBadValue key
  | BadState detail => PBadState (lit "set " ++ detail)
  end.

(** The updates of single fields of the session (runtime.rs:46-53). *)
Definition with_game (st : session) (v : variant) (g : game) (d : option dice) : session :=
  {| s_variant := v; s_game := g; s_dice := d; s_option_specs := s_option_specs st;
     s_option_values := s_option_values st; s_variant_key := s_variant_key st |}.
(** The update of [option_values] (runtime.rs:51). *)
Definition with_values (st : session) (m : values) : session :=
  {| s_variant := s_variant st; s_game := s_game st; s_dice := s_dice st; s_option_specs := s_option_specs st;
     s_option_values := m; s_variant_key := s_variant_key st |}.

(** runtime.rs:225-260: [handle_set]. *)
Definition handle_set {E} (A : engine E) (e : E) (st : session) (key value : str)
  : res (E * session * list str) :=
  if negb (nonempty key) || negb (nonempty value) then
    Ret (e, st, [to_line (PBadCommand (lit "expected: set <key> <value>"))])
  else if str_eqb key (lit "game.variant") then
    match variant_from_str value with
    | Some v => Ret (e, with_game st v (game_new v) (s_dice st), [])
    | None => Ret (e, st, [to_line (PBadValue (lit "game.variant"))])
    end
  else
    match find (fun spec => str_eqb (spec_key spec) key) (s_option_specs st) with
    | None => Ret (e, st, [to_line (PUnsupported (lit "key"))])
    | Some spec =>
        match parse_value spec value with
        | inl _ => Ret (e, st, [to_line (PBadValue key)])
        | inr parsed =>
            '(e, r) <- eng_set A e key parsed ;;
            match r with
            | inr _ => Ret (e, with_values st (values_insert key parsed (s_option_values st)), [])
            | inl err => Ret (e, st, [to_line (map_engine_set_error err key)])
            end
        end
    end.

(** runtime.rs:276-290: [handle_dice]. *)
Definition handle_dice (m : mode) (st : session) (rest : str) : res (session * list str) :=
  match split_ws rest with
  | [w1; w2] =>
      match parse_usize w1, parse_usize w2 with
      | Some a, Some b =>
          if ((1 <=? a) && (a <=? 6)) && ((1 <=? b) && (b <=? 6)) then
            d <- dice_new m (Z.to_nat a) (Z.to_nat b) ;;
            Ret (with_game st (s_variant st) (s_game st) (Some d), [])
          else Ret (st, [to_line (PBadValue (lit "dice"))])
      | _, _ => Ret (st, [to_line (PBadValue (lit "dice"))])
      end
  | _ => Ret (st, [to_line (PBadValue (lit "dice"))])
  end.

(** runtime.rs:292-300: [handle_go]. *)
Definition handle_go {E} (A : engine E) (e : E) (st : session) : res (E * list str) :=
  match s_dice st with
  | None => Ret (e, [to_line (PBadState (lit "missing.dice"))])
  | Some current_dice =>
      '(e, r) <- choose_move A e (s_game st) current_dice ;;
      match r with
      | inr mv => Ret (e, [lit "bestmove " ++ format_move_steps mv])
      | inl err => Ret (e, [to_line (PBadState (lit "move.select " ++ ubgi_error_display err))])
      end
  end.

(** runtime.rs:151-202: [handle_command]. *)
Definition handle_command {E} (m : mode) (A : engine E) (e : E) (st : session) (c : command)
  : res (E * session * list str) :=
  match c with
  | CUbgi =>
      Ret (e, st, [lit "id name " ++ id_name A e; lit "id author bkgm"; lit "id version " ++ id_version A e;
                   lit "proto 0.2"] ++ render_key_lines st ++ [lit "ubgiok"])
  | CIsReady =>
      '(e, r) <- on_ready A e ;;
      match r with
      | inr _ => Ret (e, st, [lit "readyok"])
      | inl err => Ret (e, st, [to_line (PBadState (lit "isready " ++ ubgi_error_display err))])
      end
  | CNewGame => Ret (e, with_game st (s_variant st) (game_new (s_variant st)) None, [])
  | CKeys => Ret (e, st, render_key_lines st)
  | CGet key => out <- handle_get A e st key ;; Ret (e, st, out)
  | CSet key value => handle_set A e st key value
  | CPositionGnubgid id =>
      r <- gnuid_decode m (s_variant st) (trim id) ;;
      match r with
      | inr pos =>
          let '(_, g) := set_position (s_game st) pos in
          Ret (e, with_game st (s_variant st) g (s_dice st), [])
      | inl _ => Ret (e, st, [to_line (PBadValue (lit "position"))])
      end
  | CPositionXgid => Ret (e, st, [to_line (PUnsupported (lit "position.xgid"))])
  | CPositionUnknown => Ret (e, st, [to_line (PBadCommand (lit "expected: position gnubgid <GNU_POSITION_ID>"))])
  | CDice rest => '(st, out) <- handle_dice m st rest ;; Ret (e, st, out)
  | CGoChequer => '(e, out) <- handle_go A e st ;; Ret (e, st, out)
  | CGoCube => Ret (e, st, [to_line (PUnsupported (lit "go cube"))])
  | CGoTurn => Ret (e, st, [to_line (PUnsupported (lit "go turn"))])
  | CQuit => Ret (e, st, [])
  | CUnknown => Ret (e, st, [to_line (PBadCommand (lit "unknown"))])
  end.

(** runtime.rs:86-95: the body of the loop, one input line: the state afterwards, the lines written, and
    whether to stop. *)
Definition session_step {E} (m : mode) (A : engine E) (e : E) (st : session) (line : str)
  : res (E * session * list str * bool) :=
  let cmd := trim line in
  if nonempty cmd then
    let command := parse_command cmd in
    let should_quit := match command with CQuit => true | _ => false end in
    '(e, st, out) <- handle_command m A e st command ;;
    Ret (e, st, out, should_quit)
  else Ret (e, st, [], false).

(** runtime.rs:85-99: the loop over the input; [None] is a read error (such as a line that is not UTF-8).
    The result lists each line read with the lines written for it, and how the loop ended.  Writing and
    flushing stdout (302-305) is the list of replies; write errors are ignored by the code. *)
Fixpoint session_loop {E} (m : mode) (A : engine E) (e : E) (st : session) (input : list (option str))
  : list (str * list str) * res (E * session) :=
  match input with
  | [] => ([], Ret (e, st))
  | None :: _ => ([], Ret (e, st))
  | Some line :: rest =>
      match session_step m A e st line with
      | Panic k => ([], Panic k)
      | Ret (e', st', out, should_quit) =>
          if should_quit then ([(line, out)], Ret (e', st'))
          else let '(log, r) := session_loop m A e' st' rest in ((line, out) :: log, r)
      end
  end.

(** runtime.rs:80-100: [run_ubgi_stdio]. *)
Definition run_ubgi_stdio {E} (m : mode) (A : engine E) (e : E) (input : list (option str))
  : list (str * list str) * res (E * session) :=
  session_loop m A e (session_new A e) input.
