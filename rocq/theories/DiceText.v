(** Model of the printed form of dice, dice.rs:8-15. *)
From Coq Require Import Strings.String.
From Verif Require Export Dice Str.
Open Scope Z_scope.

(** dice.rs:8-15: [Display for Dice]. *)
Definition dice_display (d : dice) : str :=
  match d with
  | Mixed big small => lit "(" ++ fmt_int (Z.of_nat small) ++ lit "," ++ fmt_int (Z.of_nat big) ++ lit ")"
  | Double die => lit "(" ++ fmt_int (Z.of_nat die) ++ lit "," ++ fmt_int (Z.of_nat die) ++ lit ")"
  end.
