(** Independent specification of move texts such as "bar/20* 13/7/5, 6/off". *)
From Coq Require Import Strings.String.
From Verif Require Export SpecText SpecVariants MoveText.
Open Scope Z_scope.

(** Steps on the board: from a point 1..24 or the bar (25) to a point 1..24 or off (0). *)
Definition on_board (s : move_step) : Prop := (1 <= ms_from s <= 25)%nat /\ (ms_to s <= 24)%nat.

(** The blank-separated words of a text. *)
Definition blank_free (w : str) : Prop := w <> [] /\ Forall (fun c => is_ws c = false) w.
Inductive words : str -> list str -> Prop :=
| words_none b : only_blanks b -> words b []
| words_last b w : only_blanks b -> blank_free w -> words (b ++ w) [w]
| words_more b w c t ws : only_blanks b -> blank_free w -> is_ws c = true -> words t ws ->
    words (b ++ w ++ c :: t) (w :: ws).

(** A point: a decimal number 1..24 (leading zeros and one '+' allowed). *)
Definition point_word (w : str) (n : nat) : Prop :=
  (1 <= n <= 24)%nat /\ unsigned_text (2 ^ 64 - 1) w (Z.of_nat n).
Definition from_word (w : str) (n : nat) : Prop :=
  (same_text w (lit "bar") /\ n = 25%nat) \/ point_word w n.
Definition to_word (w : str) (n : nat) : Prop :=
  (same_text w (lit "off") /\ n = 0%nat) \/ point_word w n.

(** Hit marks '*' and commas are ignored inside a word. *)
Definition unmarked (w : str) : str := filter (fun c => negb ((c =? chr "*") || (c =? chr ","))) w.

(** One word: points separated by '/', the first may be "bar", the last "off". *)
Definition path_word (w : str) (points : list nat) : Prop :=
  exists a f mids ms z t, unmarked w = join (lit "/") (a :: mids ++ [z]) /\
  points = f :: ms ++ [t] /\ from_word a f /\ Forall2 point_word mids ms /\ to_word z t.

(** The steps along a path. *)
Fixpoint legs (points : list nat) : list move_step :=
  match points with
  | a :: ((b :: _) as rest) => step a b :: legs rest
  | _ => []
  end.

(** What a move text says: "pass", or at least one path. *)
Definition says_pass (t : str) : Prop := spells t (lit "pass").
Definition move_text (t : str) (steps : list move_step) : Prop :=
  (says_pass t /\ steps = []) \/
  (exists ws paths, words t ws /\ ws <> [] /\ Forall2 path_word ws paths /\ steps = flat_map legs paths).

(** What the stricter [parse_move_steps] accepts: "pass", or words "from/to" (possibly none). *)
Definition step_word (w : str) (s : move_step) : Prop :=
  exists a z, w = a ++ lit "/" ++ z /\ from_word a (ms_from s) /\ to_word z (ms_to s).
Definition step_text (t : str) (steps : list move_step) : Prop :=
  (says_pass t /\ steps = []) \/ (exists ws, words t ws /\ Forall2 step_word ws steps).

(** Playing a list of dice one after the other, and the steps made. *)
Inductive plays_as : list nat -> list move_step -> position -> position -> Prop :=
| plays_as_nil p : plays_as [] [] p p
| plays_as_cons d ds from st p q r : may_move p d from -> moved p d from q -> plays_as ds st q r ->
    plays_as (d :: ds) (step from (from - d) :: st) p r.

(** Playing all dice in the given order, where a die is passed over only if it cannot be played. *)
Inductive in_order : list nat -> position -> position -> Prop :=
| in_order_nil p : in_order [] p p
| in_order_play d ds from p q r : may_move p d from -> moved p d from q -> in_order ds q r -> in_order (d :: ds) p r
| in_order_skip d ds p r : (forall from, ~ may_move p d from) -> in_order ds p r -> in_order (d :: ds) p r.

(** The orders in which a roll can be played. *)
Definition orders (d : dice) : list (list nat) :=
  match d with Double a => [[a; a; a; a]] | Mixed big small => [[big; small]; [small; big]] end.

(** The same board, whoever is to move ([Position]'s equality). *)
Definition same_board (p q : position) : Prop :=
  pips p = pips q /\ x_off p = x_off q /\ o_off p = o_off q.

(** The same with the steps made. *)
Inductive in_order_as : list nat -> list move_step -> position -> position -> Prop :=
| in_order_as_nil p : in_order_as [] [] p p
| in_order_as_play d ds from st p q r : may_move p d from -> moved p d from q -> in_order_as ds st q r ->
    in_order_as (d :: ds) (step from (from - d) :: st) p r
| in_order_as_skip d ds st p r : (forall from, ~ may_move p d from) -> in_order_as ds st p r -> in_order_as (d :: ds) st p r.

(** A child [c] of [p] whose listed text is that of another play: it cannot be made with the bigger die
    first, but a bigger-die-first play of the *opponent's* checkers leads to the same board. *)
Definition mixed_up (big small : nat) (p c : position) : Prop :=
  (forall r, in_order [big; small] p r -> ~ mirrored r c) /\
  exists p' r' c', mirrored p p' /\ in_order [big; small] p' r' /\ mirrored r' c' /\ same_board c' c.
