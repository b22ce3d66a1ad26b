(** Independent specification of the board drawing: 13 lines of 47 columns.  Every stack of checkers
    (points, bars, borne-off trays) has a place in the upper or the lower half of the drawing. *)
From Coq Require Import Strings.String.
From Verif Require Export SpecRules Str.
Open Scope Z_scope.

(** The lines, each ended by a newline. *)
Definition drawing (lines : list str) : str := flat_map (fun l => l ++ [10]) lines.

(** The stacks. *)
Inductive stack : Type := OnPoint (i : nat) | BarX | BarO | OffX | OffO.

(** Checkers on a stack: positive for x, negative for o. *)
Definition on_stack (p : position) (s : stack) : Z :=
  match s with
  | OnPoint i => pt p i
  | BarX => pt p 25
  | BarO => pt p 0
  | OffX => x_off p
  | OffO => - o_off p
  end.
Definition is_stack (s : stack) : Prop := match s with OnPoint i => (1 <= i <= 24)%nat | _ => True end.

(** Where a stack is drawn: points 13-24 in the upper half from left to right, 1-12 in the lower half
    from right to left; the bar in the middle and the trays at the right, o's above x's.  Each stack is
    three columns wide; [column] is the first one. *)
Definition upper (s : stack) : bool :=
  match s with OnPoint i => (13 <=? i)%nat | BarO | OffO => true | BarX | OffX => false end.
Definition column (s : stack) : nat :=
  match s with
  | OnPoint i =>
      if (19 <=? i)%nat then 24 + 3 * (i - 19)
      else if (13 <=? i)%nat then 1 + 3 * (i - 13)
      else if (7 <=? i)%nat then 1 + 3 * (12 - i)
      else 24 + 3 * (6 - i)
  | BarX | BarO => 20
  | OffX | OffO => 43
  end%nat.
(** The line of the [h]-th place of a stack counted from the edge of the board. *)
Definition line_of (s : stack) (h : nat) : nat := (if upper s then 1 + h else 11 - h)%nat.

(** The three characters drawn at that line and column. *)
Definition drawn_at (lines : list str) (s : stack) (h : nat) : str :=
  firstn 3 (skipn (column s) (nth (line_of s h) lines [])).

(** What they should be: the [h]-th checker of the stack (h = 0..4), X or O, or nothing; the innermost
    place shows how many there are when there are more than five. *)
Definition picture (v : Z) (h : nat) : str :=
  if (h =? 4)%nat && (5 <? Z.abs v) then
    if Z.abs v <? 10 then [32; 48 + Z.abs v; 32]
    else [48 + Z.abs v / 10; 48 + Z.abs v mod 10; 32]
  else if Z.of_nat h <? v then lit " X "
  else if v <? - Z.of_nat h then lit " O "
  else lit "   ".

(** The frame.  Border characters stand in the columns 0, 19, 23, 42 and 46 of every line: corners and tees in the
    first and the last line, vertical lines in the others. *)
Definition border_columns : list nat := [0; 19; 23; 42; 46]%nat.
Definition border (line : nat) : list Z :=
  if (line =? 0)%nat then [9484; 9516; 9516; 9516; 9488]
  else if (line =? 12)%nat then [9492; 9524; 9524; 9524; 9496]
  else [9474; 9474; 9474; 9474; 9474].
(** The number of a point, at the edge in the three columns of the point, filled up with horizontal lines. *)
Definition edge_label (i : nat) : str :=
  (if (i <? 10)%nat then [9472; 48 + Z.of_nat i] else [48 + Z.of_nat i / 10; 48 + Z.of_nat i mod 10]) ++ [9472].
Definition edge_line (s : stack) : nat := if upper s then 0%nat else 12%nat.
(** What stands in the three columns of a stack at the edge. *)
Definition at_edge (s : stack) : str := match s with OnPoint i => edge_label i | _ => [9472; 9472; 9472] end.
(** What stands in the three columns of a stack in the middle line. *)
Definition in_middle (s : stack) : str :=
  match s with OnPoint _ => lit "   " | BarX | BarO => lit "BAR" | OffX | OffO => lit "OFF" end.
