(** Model of the Rust [str]/[String] functions used by /repo.  A string is the list of
    its Unicode scalar values.  This file models the Rust standard library, not a file
    of /repo.  Byte lengths never matter in the modelled code: the two places that look
    at bytes (base64 and the XGID board) reject every non-ASCII byte. *)
From Coq Require Import Strings.String Strings.Ascii.
From Verif Require Export Base.
Open Scope Z_scope.

(** [str], [String], [&[char]]: Rust standard library, see the head of this file. *)
Definition str : Type := list Z.

(** An ASCII string literal. *)
Fixpoint lit (s : string) : str :=
  match s with
  | EmptyString => []
  | String c s' => Z.of_N (N_of_ascii c) :: lit s'
  end.
(** An ASCII character literal, [b'c'] or ['c'] (e.g. xgid.rs:199-201). *)
Definition chr (s : string) : Z := match lit s with c :: _ => c | [] => 0 end.

(** [a == b]. *)
Fixpoint str_eqb (a b : str) : bool :=
  match a, b with
  | [], [] => true
  | x :: a', y :: b' => (x =? y) && str_eqb a' b'
  | _, _ => false
  end.

(** [char::is_whitespace] (Unicode White_Space). *)
Definition is_ws (c : Z) : bool :=
  ((9 <=? c) && (c <=? 13)) || (c =? 32) || (c =? 133) || (c =? 160) || (c =? 5760)
  || ((8192 <=? c) && (c <=? 8202)) || (c =? 8232) || (c =? 8233) || (c =? 8239)
  || (c =? 8287) || (c =? 12288).

(** [trim_start], [trim_end], [trim]. *)
Fixpoint trim_start (s : str) : str :=
  match s with
  | [] => []
  | c :: s' => if is_ws c then trim_start s' else s
  end.
(** [trim_end]: the same from the right. *)
Definition trim_end (s : str) : str := rev (trim_start (rev s)).
(** [trim] (e.g. variants.rs:48, fibs.rs:83-87). *)
Definition trim (s : str) : str := trim_end (trim_start s).

(** [split(c)]: always at least one piece. *)
Fixpoint split_on (c : Z) (s : str) : list str :=
  match s with
  | [] => [[]]
  | x :: s' =>
      if x =? c then [] :: split_on c s'
      else match split_on c s' with
           | [] => [[x]]
           | w :: ws => (x :: w) :: ws
           end
  end.

(** [split_once(c)]. *)
Fixpoint split_once (c : Z) (s : str) : option (str * str) :=
  match s with
  | [] => None
  | x :: s' =>
      if x =? c then Some ([], s')
      else match split_once c s' with
           | None => None
           | Some (a, b) => Some (x :: a, b)
           end
  end.

(** [split_whitespace()]: the maximal non-blank pieces. *)
Fixpoint split_ws_raw (s : str) : list str :=
  match s with
  | [] => [[]]
  | x :: s' =>
      if is_ws x then [] :: split_ws_raw s'
      else match split_ws_raw s' with
           | [] => [[x]]
           | w :: ws => (x :: w) :: ws
           end
  end.
(** [!s.is_empty()]. *)
Definition nonempty (s : str) : bool := match s with [] => false | _ => true end.
(** [split_whitespace()] (e.g. move_text.rs:149, 294). *)
Definition split_ws (s : str) : list str := filter nonempty (split_ws_raw s).

(** [strip_prefix(p)], [starts_with(p)]. *)
Fixpoint strip_prefix (p s : str) : option str :=
  match p, s with
  | [], _ => Some s
  | x :: p', y :: s' => if x =? y then strip_prefix p' s' else None
  | _ :: _, [] => None
  end.
(** [starts_with(p)]. *)
Definition starts_with (p s : str) : bool :=
  match strip_prefix p s with Some _ => true | None => false end.

(** [contains(p)] for a string pattern. *)
Fixpoint contains (p s : str) : bool :=
  starts_with p s || match s with [] => false | _ :: s' => contains p s' end.

(** [trim_start_matches(p)] for a non-empty string pattern: strips [p] repeatedly. *)
Fixpoint trim_start_matches_fuel (fuel : nat) (p s : str) : str :=
  match fuel with
  | O => s
  | S f => match strip_prefix p s with
           | Some s' => trim_start_matches_fuel f p s'
           | None => s
           end
  end.
(** [trim_start_matches(p)]; the fuel [length s] suffices because [p] is not empty. *)
Definition trim_start_matches (p s : str) : str := trim_start_matches_fuel (length s) p s.

(** [to_ascii_lowercase()], [eq_ignore_ascii_case]. *)
Definition lower_char (c : Z) : Z := if (65 <=? c) && (c <=? 90) then c + 32 else c.
(** [to_ascii_lowercase()] (variants.rs:48, move_text.rs:385-411). *)
Definition lower (s : str) : str := map lower_char s.
(** [eq_ignore_ascii_case] (move_text.rs:145, 290). *)
Definition eq_ignore_case (a b : str) : bool := str_eqb (lower a) (lower b).

(** [join(sep)]. *)
Fixpoint join (sep : str) (l : list str) : str :=
  match l with
  | [] => []
  | [a] => a
  | a :: l' => a ++ sep ++ join sep l'
  end.

(** Decimal [Display] of integers. *)
Fixpoint dec_fuel (fuel : nat) (n : Z) : str :=
  match fuel with
  | O => []
  | S f => if n <? 10 then [48 + n] else dec_fuel f (n / 10) ++ [48 + n mod 10]
  end.
(** [Display] of an unsigned integer; the fuel bounds the number of digits. *)
Definition fmt_uint (n : Z) : str := dec_fuel (S (Z.to_nat (Z.log2 n))) n.
(** [Display] of a signed integer. *)
Definition fmt_int (z : Z) : str := if z <? 0 then 45 :: fmt_uint (- z) else fmt_uint z.

(** [parse::<uN>()] and [parse::<iN>()] (core::num from_str_radix 10): an optional
    '+' (or '-' for signed types), then at least one ASCII digit, in range. *)
Definition digit (c : Z) : option Z := if (48 <=? c) && (c <=? 57) then Some (c - 48) else None.
(** The value of a run of ASCII digits. *)
Fixpoint digits (acc : Z) (s : str) : option Z :=
  match s with
  | [] => Some acc
  | c :: s' => match digit c with Some d => digits (acc * 10 + d) s' | None => None end
  end.
(** A run of at least one digit. *)
Definition digits1 (s : str) : option Z := match s with [] => None | _ => digits 0 s end.
(** [parse::<uN>()]: values above [max] are errors. *)
Definition parse_uint (max : Z) (s : str) : option Z :=
  let s := match s with 43 :: s' => s' | _ => s end in
  match digits1 s with
  | Some v => if v <=? max then Some v else None
  | None => None
  end.
(** [parse::<iN>()]: values outside [min..=max] are errors. *)
Definition parse_int (min max : Z) (s : str) : option Z :=
  let '(neg, s) := match s with 43 :: s' => (false, s') | 45 :: s' => (true, s') | _ => (false, s) end in
  match digits1 s with
  | Some v => let v := if neg then - v else v in
              if (min <=? v) && (v <=? max) then Some v else None
  | None => None
  end.
(** [parse::<u8>()] (xgid.rs:109-113, fibs.rs:156, 161). *)
Definition parse_u8 := parse_uint 255.
(** [parse::<u16>()] (xgid.rs:114-118, 124-133). *)
Definition parse_u16 := parse_uint 65535.
(** [parse::<usize>()] (move_text.rs:384-418, ubgi/runtime.rs, bkgm-perft.rs:12-16), 64 bit. *)
Definition parse_usize := parse_uint (2 ^ 64 - 1).
(** [parse::<i8>()] (xgid.rs:140-144, fibs.rs:180, 185). *)
Definition parse_i8 := parse_int (-128) 127.
(** [parse::<i64>()] (ubgi.rs). *)
Definition parse_i64 := parse_int (- 2 ^ 63) (2 ^ 63 - 1).
