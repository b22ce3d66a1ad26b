(** Independent specification: texts up to ASCII case, blanks. *)
From Verif Require Export Str.
Open Scope Z_scope.

(** The same letter up to ASCII case (65..90 are A..Z, 97..122 are a..z). *)
Definition same_letter (c d : Z) : Prop :=
  c = d \/ (65 <= c <= 90 /\ d = c + 32) \/ (65 <= d <= 90 /\ c = d + 32).
Definition same_text (s t : str) : Prop := Forall2 same_letter s t.

(** Only blanks (Rust's [char::is_whitespace]). *)
Definition only_blanks (s : str) : Prop := Forall (fun c => is_ws c = true) s.

(** [s] is [t] up to ASCII case and surrounding blanks. *)
Definition spells (s t : str) : Prop :=
  exists a u b, s = a ++ u ++ b /\ only_blanks a /\ only_blanks b /\ same_text u t.

(** Decimal numerals: the digits of [v], most significant first, leading zeros allowed. *)
Definition numeral (s : str) (v : Z) : Prop := exists ds, ds <> [] /\ Forall (fun d => 0 <= d <= 9) ds /\
  s = map (Z.add 48) ds /\ v = fold_left (fun a d => 10 * a + d) ds 0.
Definition unsigned_text (max : Z) (s : str) (v : Z) : Prop :=
  (numeral s v \/ exists t, s = 43 :: t /\ numeral t v) /\ v <= max.
Definition signed_text (min max : Z) (s : str) (v : Z) : Prop :=
  (numeral s v \/ (exists t, s = 43 :: t /\ numeral t v) \/ (exists t w, s = 45 :: t /\ numeral t w /\ v = - w)) /\
  min <= v <= max.
