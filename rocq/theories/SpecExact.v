(** Independent specification of what the position builders do on every input, including the inputs on
    which 8-bit arithmetic overflows (properties C59 - C62). *)
From Verif Require Export SpecGame SpecGnuid SpecXgid SpecUbgi.
Open Scope Z_scope.

(** The 8-bit number that a count becomes when it overflows: [v] is congruent to [z] modulo 256. *)
Definition wraps_to (z v : Z) : Prop := -128 <= v <= 127 /\ exists k, z = v + 256 * k.
Definition wraps_to_unsigned (z v : Z) : Prop := 0 <= v <= 255 /\ exists k, z = v + 256 * k.

(** The answer when [xo] and [oo] are taken for the numbers of checkers off. *)
Definition answer_with (xo oo : Z) (ps : list Z) (r : try_err + position) : Prop :=
  match r with
  | inr p => 0 <= xo /\ 0 <= oo /\ 0 <= nth 25 ps 0 /\ nth 0 ps 0 <= 0 /\
             p = {| turn := true; pips := ps; x_off := xo; o_off := oo |}
  | inl XTooMany => xo < 0
  | inl OTooMany => 0 <= xo /\ oo < 0
  | inl XBarNegative => 0 <= xo /\ 0 <= oo /\ nth 25 ps 0 < 0
  | inl OBarPositive => 0 <= xo /\ 0 <= oo /\ 0 <= nth 25 ps 0 /\ 0 < nth 0 ps 0
  end.

(** Too many checkers for the 8-bit sums. *)
Definition overflows (ps : list Z) : Prop := 127 < x_count ps \/ 128 < o_count ps.
