(** Model of /repo/src/codecs/xgid.rs. *)
From Coq Require Import Strings.String.
From Verif Require Export Err Variants.
Open Scope Z_scope.

(** xgid.rs:5-13: [XgidError]. *)
Inductive xgid_error : Type := XgidInvalidPayload | XgidInvalidField (name : str) | XgidInvalidPosition.

(** xgid.rs:46-50: [XgidDice]. *)
Inductive xgid_dice : Type := XRolled (d1 d2 : Z) | XDoubleOffered.

(** xgid.rs:29-44: [XgidBoard] (26 bytes) and [Xgid]. *)
Record xgid : Type := {
  xg_board : list Z;
  xg_max_cube : Z;
  xg_match_length : Z;
  xg_rules : Z;
  xg_score_x : Z;
  xg_score_o : Z;
  xg_dice : xgid_dice;
  xg_move_flag : bool;
  xg_cube_owner : Z;
  xg_cube_power : Z
}.

(** xgid.rs:191-206: [parse_board].  [input] is tested by its bytes; a string that is not ASCII is
    refused with the same error whatever its length. *)
Definition xgid_cell (c : Z) : bool :=
  (c =? 45) || ((97 <=? c) && (c <=? 112)) || ((65 <=? c) && (c <=? 80)).
(** xgid.rs:191-206: [parse_board] ([XgidBoard::parse], xgid.rs:63-65, is the same). *)
Definition parse_board (input : str) : xgid_error + list Z :=
  if negb (length input =? 26)%nat then inl (XgidInvalidField (lit "board"))
  else pmap (fun c => if xgid_cell c then inr c else inl (XgidInvalidField (lit "board"))) input.

(** xgid.rs:208-212: [format_board]; board bytes are always ASCII (only [parse_board] makes them). *)
Definition format_board (b : list Z) : str := b.

(** xgid.rs:282-301: [parse_dice]. *)
Definition xgid_parse_dice (raw : str) : xgid_error + xgid_dice :=
  if str_eqb raw (lit "D") then inr XDoubleOffered
  else match raw with
       | [c1; c2] =>
           d1 <-! ok_or (XgidInvalidField (lit "dice")) (digit c1) ;;
           d2 <-! ok_or (XgidInvalidField (lit "dice")) (digit c2) ;;
           if (6 <? d1) || (6 <? d2) then inl (XgidInvalidField (lit "dice"))
           else inr (XRolled d1 d2)
       | _ => inl (XgidInvalidField (lit "dice"))
       end.

(** xgid.rs:113-117 and the like: [parts.next().ok_or(InvalidPayload)?]. *)
Definition next_part (parts : list str) : xgid_error + (str * list str) :=
  match parts with
  | [] => inl XgidInvalidPayload
  | p :: parts' => inr (p, parts')
  end.
(** [.parse().map_err(|_| e)?] (xgid.rs:104-169). *)
Definition xnum (e : xgid_error) (o : option Z) : xgid_error + Z := ok_or e o.

(** xgid.rs:104-169: [parse_xgid]. *)
Definition parse_xgid (input : str) : xgid_error + xgid :=
  let raw := trim input in
  let payload := match strip_prefix (lit "XGID=") raw with Some s => s | None => raw end in
  let parts := split_on 58 payload in
  '(f, parts) <-! next_part parts ;;
  board <-! parse_board f ;;
  '(f, parts) <-! next_part parts ;;
  max_cube <-! xnum XgidInvalidPayload (parse_u8 f) ;;
  '(f, parts) <-! next_part parts ;;
  match_length <-! xnum XgidInvalidPayload (parse_u16 f) ;;
  '(f, parts) <-! next_part parts ;;
  rules <-! xnum XgidInvalidPayload (parse_u8 f) ;;
  '(f, parts) <-! next_part parts ;;
  score_x <-! xnum XgidInvalidPayload (parse_u16 f) ;;
  '(f, parts) <-! next_part parts ;;
  score_o <-! xnum XgidInvalidPayload (parse_u16 f) ;;
  '(f, parts) <-! next_part parts ;;
  dice <-! xgid_parse_dice f ;;
  '(f, parts) <-! next_part parts ;;
  move_flag <-! (if str_eqb f (lit "0") then inr false
                 else if str_eqb f (lit "1") then inr true
                 else inl (XgidInvalidField (lit "move_flag"))) ;;
  '(f, parts) <-! next_part parts ;;
  cube_owner <-! xnum (XgidInvalidField (lit "cube_owner")) (parse_i8 f) ;;
  if negb ((-1 <=? cube_owner) && (cube_owner <=? 1)) then inl (XgidInvalidField (lit "cube_owner"))
  else
    '(f, parts) <-! next_part parts ;;
    cube_power <-! xnum XgidInvalidPayload (parse_u8 f) ;;
    match parts with
    | _ :: _ => inl XgidInvalidPayload
    | [] => inr {| xg_board := board; xg_max_cube := max_cube; xg_match_length := match_length;
                   xg_rules := rules; xg_score_x := score_x; xg_score_o := score_o; xg_dice := dice;
                   xg_move_flag := move_flag; xg_cube_owner := cube_owner; xg_cube_power := cube_power |}
    end.

(** xgid.rs:171-189: [format_xgid]. *)
Definition format_xgid (x : xgid) : str :=
  let dice := match xg_dice x with
              | XRolled d1 d2 => fmt_uint d1 ++ fmt_uint d2
              | XDoubleOffered => lit "D"
              end in
  lit "XGID=" ++ format_board (xg_board x) ++ lit ":" ++ fmt_uint (xg_max_cube x) ++ lit ":"
  ++ fmt_uint (xg_match_length x) ++ lit ":" ++ fmt_uint (xg_rules x) ++ lit ":"
  ++ fmt_uint (xg_score_x x) ++ lit ":" ++ fmt_uint (xg_score_o x) ++ lit ":" ++ dice ++ lit ":"
  ++ fmt_uint (if xg_move_flag x then 1 else 0) ++ lit ":" ++ fmt_int (xg_cube_owner x) ++ lit ":"
  ++ fmt_uint (xg_cube_power x).

(** xgid.rs:239-241: [from_utf8(..).expect(..)].  Simplified: every non-ASCII byte is a failure (a
    few byte sequences would be accepted); no position with at most 15 checkers a side reaches it. *)
Definition expect_ascii (l : list Z) : res str :=
  if forallb (fun c => c <? 128) l then Ret l else Panic Unwrapped.

(** xgid.rs:214-242: [encode_for_position]. *)
Definition xgid_encode_position (m : mode) (p : position) : res str :=
  let chars := repeat 45 26 in
  xb <- x_bar p ;;
  chars <- (if 0 <? xb then c <- u8 m (xb - 1) ;; c <- u8 m (97 + c) ;; assign chars 0 c else Ret chars) ;;
  ob <- o_bar m p ;;
  chars <- (if 0 <? ob then c <- u8 m (ob - 1) ;; c <- u8 m (65 + c) ;; assign chars 25 c else Ret chars) ;;
  chars <- mfold (fun chars i =>
      n <- pip p (25 - i) ;;
      ch <- (if 0 <? n then c <- u8 m (as_u8 n - 1) ;; u8 m (97 + c)
             else if n <? 0 then k <- i8 m (- n) ;; c <- u8 m (as_u8 k - 1) ;; u8 m (65 + c)
             else Ret 45) ;;
      assign chars i ch) (range 1 25) chars ;;
  expect_ascii chars.

(** xgid.rs:244-280: the loop of [decode_for_position]; [ch] passed [parse_board], so u8 subtraction
    cannot wrap. *)
Definition xgid_cell_step (m : mode) (ps : list Z) (ic : nat * Z) : res (xgid_error + list Z) :=
  let '(i, ch) := ic in
  if (i =? 0)%nat then
    if ch =? 45 then Ret (inr ps)
    else if negb ((97 <=? ch) && (ch <=? 112)) then Ret (inl (XgidInvalidField (lit "board")))
    else ps <- assign ps 25 (as_i8 (ch - 97 + 1)) ;; Ret (inr ps)
  else if (i =? 25)%nat then
    if ch =? 45 then Ret (inr ps)
    else if negb ((65 <=? ch) && (ch <=? 80)) then Ret (inl (XgidInvalidField (lit "board")))
    else v <- i8 m (- as_i8 (ch - 65 + 1)) ;; ps <- assign ps 0 v ;; Ret (inr ps)
  else
    v <-? (if ch =? 45 then Ret (inr 0)
           else if (97 <=? ch) && (ch <=? 112) then Ret (inr (as_i8 (ch - 97 + 1)))
           else if (65 <=? ch) && (ch <=? 80) then v <- i8 m (- as_i8 (ch - 65 + 1)) ;; Ret (inr v)
           else Ret (inl (XgidInvalidField (lit "board")))) ;;
    ps <- assign ps (25 - i) v ;; Ret (inr ps).
(** xgid.rs:244-280: [decode_for_position]. *)
Definition xgid_decode_position (m : mode) (N : Z) (board : str) : res (xgid_error + position) :=
  board <-? lift (parse_board board) ;;
  ps <-? efold (xgid_cell_step m) (combine (seq 0 (length board)) board) (repeat 0 26) ;;
  r <- try_from m N ps ;;
  Ret (match r with inl _ => inl XgidInvalidPosition | inr p => inr p end).

(** [.map(f)] on a result that may panic (xgid.rs:92-102). *)
Definition map_ok {E A B} (f : A -> B) (r : res (E + A)) : res (E + B) :=
  x <- r ;; Ret (match x with inl e => inl e | inr a => inr (f a) end).

(** xgid.rs:80-102: [encode], [decode]. *)
Definition xgid_encode (m : mode) (v : vpos) : res str :=
  match v with
  | VBackgammon p => xgid_encode_position m p
  | VNackgammon p => xgid_encode_position m p
  | VLonggammon p => xgid_encode_position m p
  | VHypergammon p => xgid_encode_position m p
  | VHypergammon2 p => xgid_encode_position m p
  | VHypergammon4 p => xgid_encode_position m p
  | VHypergammon5 p => xgid_encode_position m p
  end.
(** xgid.rs:92-102: [decode]. *)
Definition xgid_decode (m : mode) (v : variant) (board : str) : res (xgid_error + vpos) :=
  match v with
  | Backgammon => map_ok VBackgammon (xgid_decode_position m 15 board)
  | Nackgammon => map_ok VNackgammon (xgid_decode_position m 15 board)
  | Longgammon => map_ok VLonggammon (xgid_decode_position m 15 board)
  | Hypergammon => map_ok VHypergammon (xgid_decode_position m 3 board)
  | Hypergammon2 => map_ok VHypergammon2 (xgid_decode_position m 2 board)
  | Hypergammon4 => map_ok VHypergammon4 (xgid_decode_position m 4 board)
  | Hypergammon5 => map_ok VHypergammon5 (xgid_decode_position m 5 board)
  end.
