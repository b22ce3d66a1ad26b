(** Independent specification for properties C68 (engine specs written and read back) and C69 (FIBS
    texts, including those on which 8-bit arithmetic overflows). *)
From Coq Require Import Strings.String.
From Verif Require Export SpecExact SpecFibs SpecEngine Fibs.
Open Scope Z_scope.

(** ** Engine specs *)

(** What the key of an option becomes: every leading "engine." is dropped, then the blanks around the
    rest, and "engine." is put in front unless it is there again. *)
Fixpoint copies (n : nat) (w : str) : str := match n with O => [] | S n' => w ++ copies n' w end.
Definition reread_key (k k' : str) : Prop :=
  exists n t u, k = copies n (lit "engine.") ++ t /\ (forall r, t <> lit "engine." ++ r) /\ stripped t u /\ full_name u k'.

(** The order in which options are written: engine.ply, engine.top_k, the others in key order. *)
Definition writing_order (m es : list (str * str)) : Prop :=
  exists a b c, es = a ++ b ++ c /\
    (forall e, In e a <-> In e m /\ fst e = lit "engine.ply") /\ (List.length a <= 1)%nat /\
    (forall e, In e b <-> In e m /\ fst e = lit "engine.top_k") /\ (List.length b <= 1)%nat /\
    (forall e, In e c <-> In e m /\ fst e <> lit "engine.ply" /\ fst e <> lit "engine.top_k") /\ in_key_order c.

(** ** FIBS texts *)

(** Each number as an 8-bit number. *)
Definition wrapped (zs vs : list Z) : Prop := Forall2 wraps_to zs vs.
(** A debug build panics: 128 of o on the bar or on a point (written o-128), or too many checkers. *)
Definition fibs_panics (b : fibs_board) (ps : list Z) : Prop :=
  fb_o_bar b = 128 \/ In 128 (fb_points b) \/ overflows ps.
(** The answer when [ps] are the numbers and [xo], [oo] the checkers off. *)
Inductive fibs_answer (k : variant) (b : fibs_board) (xo oo : Z) (ps : list Z) : fibs_error + vpos -> Prop :=
| fibs_bad_board e : answer_with xo oo ps (inl e) -> fibs_answer k b xo oo ps (inl FibsInvalidPosition)
| fibs_bad_turn p : answer_with xo oo ps (inr p) -> fb_turn b <> lit "x" -> fb_turn b <> lit "o" ->
    fibs_answer k b xo oo ps (inl (FibsInvalidField (lit "turn")))
| fibs_x p : answer_with xo oo ps (inr p) -> fb_turn b = lit "x" -> fb_x_off b = xo -> fb_o_off b = oo ->
    fibs_answer k b xo oo ps (inr (tag k p))
| fibs_x_bad p : answer_with xo oo ps (inr p) -> fb_turn b = lit "x" -> ~ (fb_x_off b = xo /\ fb_o_off b = oo) ->
    fibs_answer k b xo oo ps (inl FibsInvalidPosition)
| fibs_o p q : answer_with xo oo ps (inr p) -> fb_turn b = lit "o" -> fb_x_off b = oo -> fb_o_off b = xo ->
    turn q = false -> x_off q = oo -> o_off q = xo -> wrapped (map Z.opp (rev ps)) (pips q) ->
    fibs_answer k b xo oo ps (inr (tag k q))
| fibs_o_bad p : answer_with xo oo ps (inr p) -> fb_turn b = lit "o" -> ~ (fb_x_off b = oo /\ fb_o_off b = xo) ->
    fibs_answer k b xo oo ps (inl FibsInvalidPosition).

(** The beginning of a text: its fields are in order, o has [ob] checkers on the bar, and the points
    text begins with the points [ns] (at most 24 of them; anything may follow). *)
Definition fibs_begins (s : str) (ob : Z) (ns : list Z) : Prop :=
  exists fs es t bar off ws rest xb xe oe, s = join (lit ";") fs /\ Forall2 field_text fs es /\
  last_value (lit "turn") es t /\
  last_value (lit "bar") es bar /\ counts_text bar xb ob /\
  last_value (lit "off") es off /\ counts_text off xe oe /\
  last_value (lit "points") es (join (lit ",") (ws ++ rest)) /\ (List.length ws <= 24)%nat /\ Forall2 point_text ws ns.
