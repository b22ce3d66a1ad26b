(** Independent specification of FIBS board texts. *)
From Coq Require Import Strings.String.
From Verif Require Export SpecGame SpecText SpecVariants.
Open Scope Z_scope.

(** [t] is [s] without the blanks around it. *)
Definition stripped (s t : str) : Prop :=
  (exists a b, s = a ++ t ++ b /\ only_blanks a /\ only_blanks b) /\
  (t = [] \/ (is_ws (hd 0 t) = false /\ is_ws (last t 0) = false)).

(** A point: "-" is empty, "xN" is N checkers of x, "oN" is N checkers of o (negative). *)
Definition point_text (s : str) (n : Z) : Prop :=
  (stripped s (lit "-") /\ n = 0) \/
  (exists t, stripped s (lit "x" ++ t) /\ signed_text (-128) 127 t n) \/
  (exists t, stripped s (lit "o" ++ t) /\ signed_text (-128) 127 t (- n)).

(** A count of x (true) or o (false): "x3", "o0". *)
Definition count_text (s : str) (c : bool * Z) : Prop :=
  exists t, stripped s ((if fst c then lit "x" else lit "o") ++ t) /\ unsigned_text 255 t (snd c).

(** The last value given for a key. *)
Definition last_value {K V} (k : K) (l : list (K * V)) (v : V) : Prop :=
  exists a b, l = a ++ (k, v) :: b /\ Forall (fun e => fst e <> k) b.

(** Two counts separated by commas, as "x1,o2"; a repeated one overrides. *)
Definition counts_text (s : str) (x o : Z) : Prop :=
  exists ws cs, s = join (lit ",") ws /\ Forall2 count_text ws cs /\ last_value true cs x /\ last_value false cs o.

(** A field "key=value", blanks allowed around the key and the value. *)
Definition field_text (s : str) (e : str * str) : Prop :=
  exists k v, s = k ++ lit "=" ++ v /\ stripped k (fst e) /\ stripped v (snd e) /\ ~ In 59 s /\
  In (fst e) [lit "turn"; lit "bar"; lit "off"; lit "points"].

(** What a text says: the word after turn=, checkers on the bars, checkers off, points 24 down to 1.
    Fields are separated by ';', may come in any order, and a repeated one overrides. *)
Record fibs_board : Type := {
  fb_turn : str; fb_x_bar : Z; fb_o_bar : Z; fb_x_off : Z; fb_o_off : Z; fb_points : list Z }.
Definition fibs_text (s : str) (b : fibs_board) : Prop :=
  exists fs es bar off ws, s = join (lit ";") fs /\ Forall2 field_text fs es /\
  last_value (lit "turn") es (fb_turn b) /\
  last_value (lit "bar") es bar /\ counts_text bar (fb_x_bar b) (fb_o_bar b) /\
  last_value (lit "off") es off /\ counts_text off (fb_x_off b) (fb_o_off b) /\
  last_value (lit "points") es (join (lit ",") ws) /\ length ws = 24%nat /\
  Forall2 point_text ws (fb_points b).

(** The 26 numbers: o's bar, points 1..24, x's bar. *)
Definition fb_pips (b : fibs_board) : list Z := - fb_o_bar b :: rev (fb_points b) ++ [fb_x_bar b].
