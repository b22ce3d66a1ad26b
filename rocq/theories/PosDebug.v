(** Model of position.rs:383-422 ([Debug] for [Position]). *)
From Coq Require Import Strings.String.
From Verif Require Export Position Str.
Open Scope Z_scope.

(** [write!(s, "{}:{}, ", k, v)] (position.rs:390, 394, 398, 408, 412, 416). *)
Definition dbg_item (k : str) (v : Z) : str := k ++ lit ":" ++ fmt_int v ++ lit ", ".

(** position.rs:400-401, 418-419: [s.pop(); s.pop();] *)
Definition pop2 (s : str) : str := removelast (removelast s).

(** position.rs:387-402: the line of x. *)
Definition dbg_x (p : position) : res str :=
  b <- index (pips p) X_BAR ;;
  let s := lit "x: {" in
  let s := if 0 <? b then s ++ dbg_item (lit "bar") b else s in
  s <- mfold (fun s i => v <- index (pips p) i ;;
                Ret (if 0 <? v then s ++ dbg_item (fmt_int (Z.of_nat i)) v else s))
        (rev (range 1 X_BAR)) s ;;
  let s := if 0 <? x_off p then s ++ dbg_item (lit "off") (x_off p) else s in
  Ret (pop2 s ++ lit "}" ++ [10]).

(** position.rs:404-421: the line of o; the negations are i8 operations. *)
Definition dbg_o (m : mode) (p : position) : res str :=
  let s := lit "o: {" in
  let s := if 0 <? o_off p then s ++ dbg_item (lit "off") (o_off p) else s in
  s <- mfold (fun s i => v <- index (pips p) i ;;
                if v <? 0 then n <- i8 m (- v) ;; Ret (s ++ dbg_item (fmt_int (Z.of_nat i)) n)
                else Ret s)
        (rev (range 1 X_BAR)) s ;;
  b <- index (pips p) O_BAR ;;
  s <- (if b <? 0 then n <- i8 m (- b) ;; Ret (s ++ dbg_item (lit "bar") n) else Ret s) ;;
  Ret (pop2 s ++ lit "}").

(** position.rs:383-422: [fmt]. *)
Definition debug_fmt (m : mode) (p : position) : res str :=
  x <- dbg_x p ;; o <- dbg_o m p ;; Ret (lit "Position:" ++ [10] ++ x ++ o).
