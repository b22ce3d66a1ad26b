(** Model of /repo/src/codecs/fibs.rs (its [legal_moves], [encode_move], [apply_move] and
    [normalize_move] only call move_text.rs: MoveText.v). *)
From Coq Require Import Strings.String.
From Verif Require Export Err Variants Xgid.
Open Scope Z_scope.

(** fibs.rs:6-14: [FibsError]. *)
Inductive fibs_error : Type := FibsInvalidPayload | FibsInvalidField (name : str) | FibsInvalidPosition.

(** fibs.rs:54-74: [encode_for_position]. *)
Definition fibs_encode_position (m : mode) (p : position) : res str :=
  let t := if turn p then lit "x" else lit "o" in
  xb <- x_bar p ;;
  ob <- o_bar m p ;;
  let bar := lit "x" ++ fmt_uint xb ++ lit ",o" ++ fmt_uint ob in
  let off := lit "x" ++ fmt_uint (x_off p) ++ lit ",o" ++ fmt_uint (o_off p) in
  points <- mmap (fun i =>
      n <- pip p i ;;
      if 0 <? n then Ret (lit "x" ++ fmt_int n)
      else if n <? 0 then k <- i8 m (- n) ;; Ret (lit "o" ++ fmt_int k)
      else Ret (lit "-")) (rev (range 1 25)) ;;
  Ret (lit "turn=" ++ t ++ lit ";bar=" ++ bar ++ lit ";off=" ++ off ++ lit ";points=" ++ join (lit ",") points).

(** fibs.rs:76-90: the four optional fields and the loop body that fills them. *)
Record fibs_fields : Type := {
  f_turn : option str; f_bar : option str; f_off : option str; f_points : option str }.
(** fibs.rs:76-79: nothing found yet. *)
Definition fibs_no_fields : fibs_fields := {| f_turn := None; f_bar := None; f_off := None; f_points := None |}.
(** fibs.rs:81-90: the loop body. *)
Definition fibs_field_step (st : fibs_fields) (part : str) : fibs_error + fibs_fields :=
  '(k, v) <-! ok_or FibsInvalidPayload (split_once 61 part) ;;
  let k := trim k in
  if str_eqb k (lit "turn") then
    inr {| f_turn := Some (trim v); f_bar := f_bar st; f_off := f_off st; f_points := f_points st |}
  else if str_eqb k (lit "bar") then
    inr {| f_turn := f_turn st; f_bar := Some (trim v); f_off := f_off st; f_points := f_points st |}
  else if str_eqb k (lit "off") then
    inr {| f_turn := f_turn st; f_bar := f_bar st; f_off := Some (trim v); f_points := f_points st |}
  else if str_eqb k (lit "points") then
    inr {| f_turn := f_turn st; f_bar := f_bar st; f_off := f_off st; f_points := Some (trim v) |}
  else inl FibsInvalidPayload.

(** fibs.rs:152-166: the loop body of [parse_two_counts]. *)
Definition fibs_count_step (st : option Z * option Z) (chunk : str) : fibs_error + (option Z * option Z) :=
  let '(x, o) := st in
  let chunk := trim chunk in
  match strip_prefix (lit "x") chunk with
  | Some rest => n <-! ok_or (FibsInvalidField (lit "count")) (parse_u8 rest) ;; inr (Some n, o)
  | None =>
      match strip_prefix (lit "o") chunk with
      | Some rest => n <-! ok_or (FibsInvalidField (lit "count")) (parse_u8 rest) ;; inr (x, Some n)
      | None => inl (FibsInvalidField (lit "count"))
      end
  end.
(** fibs.rs:149-172: [parse_two_counts]. *)
Definition fibs_two_counts (raw : str) : fibs_error + (Z * Z) :=
  '(x, o) <-! pfold fibs_count_step (split_on 44 raw) (None, None) ;;
  x <-! ok_or (FibsInvalidField (lit "count")) x ;;
  o <-! ok_or (FibsInvalidField (lit "count")) o ;;
  inr (x, o).

(** fibs.rs:174-190: [parse_point_token]; [-n] is an i8 negation. *)
Definition fibs_point_token (m : mode) (token : str) : res (fibs_error + Z) :=
  if str_eqb token (lit "-") then Ret (inr 0)
  else
    match strip_prefix (lit "x") token with
    | Some rest => lift (ok_or (FibsInvalidField (lit "points")) (parse_i8 rest))
    | None =>
        match strip_prefix (lit "o") token with
        | Some rest =>
            n <-? lift (ok_or (FibsInvalidField (lit "points")) (parse_i8 rest)) ;;
            v <- i8 m (- n) ;; Ret (inr v)
        | None => Ret (inl (FibsInvalidField (lit "points")))
        end
    end.

(** fibs.rs:105-109: the loop over [idx in 0..24]; [tokens.next()] is the [idx]-th token. *)
Definition fibs_point_step (m : mode) (tokens : list str) (ps : list Z) (idx : nat) : res (fibs_error + list Z) :=
  token <-? lift (ok_or FibsInvalidPayload (nth_error tokens idx)) ;;
  v <-? fibs_point_token m (trim token) ;;
  ps <- assign ps (24 - idx) v ;; Ret (inr ps).

(** fibs.rs:75-124: [decode_for_position]. *)
Definition fibs_decode_position (m : mode) (N : Z) (text : str) : res (fibs_error + position) :=
  st <-? lift (pfold fibs_field_step (split_on 59 text) fibs_no_fields) ;;
  t <-? lift (ok_or FibsInvalidPayload (f_turn st)) ;;
  bar <-? lift (ok_or FibsInvalidPayload (f_bar st)) ;;
  off <-? lift (ok_or FibsInvalidPayload (f_off st)) ;;
  points <-? lift (ok_or FibsInvalidPayload (f_points st)) ;;
  '(xb, ob) <-? lift (fibs_two_counts bar) ;;
  '(x_exp, o_exp) <-? lift (fibs_two_counts off) ;;
  ps <- assign (repeat 0 26) 25 (as_i8 xb) ;;
  nb <- i8 m (- as_i8 ob) ;;
  ps <- assign ps 0 nb ;;
  let tokens := split_on 44 points in
  ps <-? efold (fibs_point_step m tokens) (range 0 24) ps ;;
  if (24 <? length tokens)%nat then Ret (inl FibsInvalidPayload)
  else
    r <- try_from m N ps ;;
    match r with
    | inl _ => Ret (inl FibsInvalidPosition)
    | inr p =>
        p <-? (if str_eqb t (lit "o") then q <- flip m p ;; Ret (inr q)
               else if negb (str_eqb t (lit "x")) then Ret (inl (FibsInvalidField (lit "turn")))
               else Ret (inr p)) ;;
        if negb (x_off p =? x_exp) || negb (o_off p =? o_exp) then Ret (inl FibsInvalidPosition)
        else Ret (inr p)
    end.

(** fibs.rs:30-52: [encode], [decode]. *)
Definition fibs_encode (m : mode) (v : vpos) : res str :=
  match v with
  | VBackgammon p => fibs_encode_position m p
  | VNackgammon p => fibs_encode_position m p
  | VLonggammon p => fibs_encode_position m p
  | VHypergammon p => fibs_encode_position m p
  | VHypergammon2 p => fibs_encode_position m p
  | VHypergammon4 p => fibs_encode_position m p
  | VHypergammon5 p => fibs_encode_position m p
  end.
(** fibs.rs:42-52: [decode]. *)
Definition fibs_decode (m : mode) (k : variant) (text : str) : res (fibs_error + vpos) :=
  match k with
  | Backgammon => map_ok VBackgammon (fibs_decode_position m 15 text)
  | Nackgammon => map_ok VNackgammon (fibs_decode_position m 15 text)
  | Longgammon => map_ok VLonggammon (fibs_decode_position m 15 text)
  | Hypergammon => map_ok VHypergammon (fibs_decode_position m 3 text)
  | Hypergammon2 => map_ok VHypergammon2 (fibs_decode_position m 2 text)
  | Hypergammon4 => map_ok VHypergammon4 (fibs_decode_position m 4 text)
  | Hypergammon5 => map_ok VHypergammon5 (fibs_decode_position m 5 text)
  end.

(** codecs/mod.rs: the [VariantCodec] implementations of fibs.rs:18-28 and xgid.rs are these functions. *)
