(** Model of the board printer, position.rs:128-170 ([State::show], [print_point]).  What is printed to
    stdout is returned as a string. *)
From Coq Require Import Strings.String.
From Verif Require Export Position Str.
Open Scope Z_scope.

(** The box-drawing characters of the literals in position.rs:129-159, written with ASCII stand-ins:
    r T q for the upper corner, tee and corner, L Y J for the lower ones, - and | for the lines. *)
Definition box_char (c : Z) : Z :=
  if c =? 45 then 9472 else if c =? 124 then 9474
  else if c =? 114 then 9484 else if c =? 84 then 9516 else if c =? 113 then 9488
  else if c =? 76 then 9492 else if c =? 89 then 9524 else if c =? 74 then 9496
  else c.
(** A text literal of position.rs:129-159, with stand-ins for its box-drawing characters. *)
Definition box (s : string) : str := map box_char (lit s).

(** position.rs:162-170: [print_point].  [val.abs()] is an i8 operation, evaluated in row 4 only. *)
Definition print_point (m : mode) (value row : Z) : res str :=
  a <- (if row =? 4 then i8 m (Z.abs value) else Ret 0) ;;
  if (row =? 4) && (9 <? a) then Ret (fmt_int a ++ lit " ")
  else if (row =? 4) && (5 <? a) then Ret (lit " " ++ fmt_int a ++ lit " ")
  else if row <? value then Ret (lit " X ")
  else if value <? - row then Ret (lit " O ")
  else Ret (lit "   ").

(** position.rs:130-143: one row of the upper half. *)
Definition upper_row (m : mode) (p : position) (row : Z) : res str :=
  pts <- mflat_map (fun point =>
           v <- pip p point ;;
           c <- print_point m v row ;;
           if (point =? 18)%nat then
             ob <- o_bar m p ;;
             n <- i8 m (- as_i8 ob) ;;
             b <- print_point m n row ;;
             Ret (c ++ box "|" ++ b ++ box "|")
           else Ret c) (range 13 25) ;;
  n <- i8 m (- as_i8 (o_off p)) ;;
  off <- print_point m n row ;;
  Ret (box "|" ++ pts ++ box "|" ++ off ++ box "|" ++ [10]).

(** position.rs:145-158: one row of the lower half. *)
Definition lower_row (m : mode) (p : position) (row : Z) : res str :=
  pts <- mflat_map (fun point =>
           bar <- (if (point =? 6)%nat then
                     xb <- x_bar p ;;
                     b <- print_point m (as_i8 xb) row ;;
                     Ret (box "|" ++ b ++ box "|")
                   else Ret []) ;;
           v <- pip p point ;;
           c <- print_point m v row ;;
           Ret (bar ++ c)) (rev (range 1 13)) ;;
  off <- print_point m (as_i8 (x_off p)) row ;;
  Ret (box "|" ++ pts ++ box "|" ++ off ++ box "|" ++ [10]).

(** position.rs:128-160: [show]. *)
Definition show (m : mode) (p : position) : res str :=
  up <- mflat_map (upper_row m p) [0; 1; 2; 3; 4] ;;
  low <- mflat_map (lower_row m p) [4; 3; 2; 1; 0] ;;
  Ret (box "r13-14-15-16-17-18-T---T19-20-21-22-23-24-T---q" ++ [10] ++ up
       ++ box "|                  |BAR|                  |OFF|" ++ [10] ++ low
       ++ box "L12-11-10--9--8--7-Y---Y-6--5--4--3--2--1-Y---J" ++ [10]).
