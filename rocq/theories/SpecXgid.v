(** Independent specification of XGID texts. *)
From Coq Require Import Strings.String.
From Verif Require Export SpecGame SpecText SpecVariants Xgid.
Open Scope Z_scope.

(** The character for a point: '-' if empty, 'a', 'b', .. for 1, 2, .. x checkers, 'A', 'B', .. for
    o checkers. *)
Definition cell_char (n : Z) : Z := if 0 <? n then 96 + n else if n <? 0 then 64 - n else 45.
Definition board_char (c : Z) : Prop := c = 45 \/ 97 <= c <= 112 \/ 65 <= c <= 80.

(** A board text shows the points from x's bar (25) down to o's bar (0), at most 16 checkers each. *)
Definition shows (s : str) (ps : list Z) : Prop :=
  length s = 26%nat /\ length ps = 26%nat /\ 0 <= nth 25 ps 0 /\ nth 0 ps 0 <= 0 /\
  forall i, (i <= 25)%nat -> -16 <= nth i ps 0 <= 16 /\ nth (25 - i) s 0 = cell_char (nth i ps 0).

(** An Xgid value in the documented ranges: u8 and u16 fields, dice digits 0..6, cube owner -1..1. *)
Definition xgid_ok (x : xgid) : Prop :=
  (length (xg_board x) = 26%nat /\ Forall board_char (xg_board x)) /\
  0 <= xg_max_cube x <= 255 /\ 0 <= xg_match_length x <= 65535 /\ 0 <= xg_rules x <= 255 /\
  0 <= xg_score_x x <= 65535 /\ 0 <= xg_score_o x <= 65535 /\
  (forall a b, xg_dice x = XRolled a b -> 0 <= a <= 6 /\ 0 <= b <= 6) /\
  -1 <= xg_cube_owner x <= 1 /\ 0 <= xg_cube_power x <= 255.

(** The texts of an Xgid value: ten fields separated by ':', optionally preceded by "XGID=", with
    surrounding blanks allowed. *)
Definition dice_text (f : str) (d : xgid_dice) : Prop :=
  match d with
  | XDoubleOffered => f = lit "D"
  | XRolled a b => 0 <= a <= 6 /\ 0 <= b <= 6 /\ f = [48 + a; 48 + b]
  end.
Definition xgid_text (s : str) (x : xgid) : Prop :=
  exists pre post prefix f0 f1 f2 f3 f4 f5 f6 f7 f8 f9,
  s = pre ++ prefix ++ join (lit ":") [f0; f1; f2; f3; f4; f5; f6; f7; f8; f9] ++ post /\
  only_blanks pre /\ only_blanks post /\ (prefix = [] \/ prefix = lit "XGID=") /\
  (length f0 = 26%nat /\ Forall board_char f0 /\ xg_board x = f0) /\
  unsigned_text 255 f1 (xg_max_cube x) /\ unsigned_text 65535 f2 (xg_match_length x) /\
  unsigned_text 255 f3 (xg_rules x) /\ unsigned_text 65535 f4 (xg_score_x x) /\
  unsigned_text 65535 f5 (xg_score_o x) /\ dice_text f6 (xg_dice x) /\
  f7 = (if xg_move_flag x then lit "1" else lit "0") /\
  signed_text (-1) 1 f8 (xg_cube_owner x) /\ unsigned_text 255 f9 (xg_cube_power x).
