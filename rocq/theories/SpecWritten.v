(** Independent specification of the texts that are written: numbers in shortest decimal form and fixed layouts. *)
From Coq Require Import Strings.String Permutation.
From Verif Require Export SpecText SpecVariants SpecXgid SpecMoveText SpecEngine Ubgi.
Open Scope Z_scope.

(** The shortest decimal form of a number: no leading zero, a minus sign only for negative numbers. *)
Definition decimal (s : str) (v : Z) : Prop := numeral s v /\ (hd 0 s = 48 -> s = [48]).
Definition integer (s : str) (v : Z) : Prop :=
  (0 <= v /\ decimal s v) \/ (v < 0 /\ exists t, s = 45 :: t /\ decimal t (- v)).

(** A full XGID. *)
Definition dice_written (f : str) (d : xgid_dice) : Prop :=
  match d with XRolled a b => f = [48 + a; 48 + b] | XDoubleOffered => f = lit "D" end.
Definition xgid_written (s : str) (x : xgid) : Prop :=
  exists f1 f2 f3 f4 f5 f6 f8 f9,
  s = lit "XGID=" ++ join (lit ":") [xg_board x; f1; f2; f3; f4; f5; f6; (if xg_move_flag x then lit "1" else lit "0"); f8; f9] /\
  decimal f1 (xg_max_cube x) /\ decimal f2 (xg_match_length x) /\ decimal f3 (xg_rules x) /\ decimal f4 (xg_score_x x) /\
  decimal f5 (xg_score_o x) /\ dice_written f6 (xg_dice x) /\ integer f8 (xg_cube_owner x) /\ decimal f9 (xg_cube_power x).

(** A FIBS board: turn, bars, borne off, points 24 down to 1. *)
Definition point_written (s : str) (n : Z) : Prop :=
  (n = 0 /\ s = lit "-") \/ (0 < n /\ exists t, s = lit "x" ++ t /\ decimal t n) \/ (n < 0 /\ exists t, s = lit "o" ++ t /\ decimal t (- n)).
Definition fibs_written (s : str) (p : position) : Prop :=
  exists xb ob xo oo ws,
  s = lit "turn=" ++ (if turn p then lit "x" else lit "o") ++ lit ";bar=x" ++ xb ++ lit ",o" ++ ob ++
      lit ";off=x" ++ xo ++ lit ",o" ++ oo ++ lit ";points=" ++ join (lit ",") ws /\
  decimal xb (pt p 25) /\ decimal ob (- pt p 0) /\ decimal xo (x_off p) /\ decimal oo (o_off p) /\
  List.length ws = 24%nat /\ forall i, (i < 24)%nat -> point_written (nth i ws []) (pt p (24 - i)).

(** The steps of a move: "from/to" with "bar" for 25 and "off" for 0, separated by single spaces; "pass" for none. *)
Definition end_written (s : str) (n : nat) : Prop :=
  (n = 25%nat /\ s = lit "bar") \/ (n = 0%nat /\ s = lit "off") \/ ((1 <= n <= 24)%nat /\ decimal s (Z.of_nat n)).
Definition step_written (s : str) (st : move_step) : Prop :=
  exists a b, s = a ++ lit "/" ++ b /\ end_written a (ms_from st) /\ end_written b (ms_to st).
Definition steps_written (s : str) (steps : list move_step) : Prop :=
  (steps = [] /\ s = lit "pass") \/ (steps <> [] /\ exists ws, s = join (lit " ") ws /\ Forall2 step_written ws steps).

(** An engine spec: alias, "@version" if there is one, ":" and the options if there are any: first ply, then top_k,
    then the others in the order of their names, each as "name=value", the name without any leading "engine.". *)
Definition rank (k : str) (n : nat) : Prop :=
  (k = lit "engine.ply" /\ n = 0%nat) \/ (k = lit "engine.top_k" /\ n = 1%nat) \/
  (k <> lit "engine.ply" /\ k <> lit "engine.top_k" /\ n = 2%nat).
Definition shown_before (a b : str) : Prop :=
  exists i j, rank a i /\ rank b j /\ ((i < j)%nat \/ (i = j /\ comes_before a b)).
Fixpoint prefixed (n : nat) (t : str) : str := match n with O => t | S n' => lit "engine." ++ prefixed n' t end.
Definition option_written (s : str) (e : str * str) : Prop :=
  exists n t, fst e = prefixed n t /\ (forall u, t <> lit "engine." ++ u) /\ s = t ++ lit "=" ++ snd e.
Definition spec_written (s : str) (e : engine_spec) : Prop :=
  exists es ws, Permutation es (es_options e) /\
  (forall a x b y c, es = a ++ x :: b ++ y :: c -> shown_before (fst x) (fst y)) /\ Forall2 option_written ws es /\
  s = es_alias e ++ (match es_version e with Some v => lit "@" ++ v | None => [] end) ++
      (match es with [] => [] | _ => lit ":" ++ join (lit ",") ws end).

(** The line that declares an option. *)
Definition minor_mark (minor : bool) : str := if minor then lit " !" else [].
Definition key_line_written (s : str) (o : option_spec) : Prop :=
  match o with
  | OInteger key (Some a) (Some b) d minor => exists ta tb td, integer ta a /\ integer tb b /\ integer td d /\
      s = lit "key " ++ key ++ lit " int " ++ ta ++ lit ".." ++ tb ++ lit " " ++ td ++ minor_mark minor
  | OInteger key _ _ d minor => exists td, integer td d /\ s = lit "key " ++ key ++ lit " int " ++ td ++ minor_mark minor
  | OBoolean key d minor => s = lit "key " ++ key ++ lit " bool " ++ (if d then lit "true" else lit "false") ++ minor_mark minor
  | OChoice key choices d minor => s = lit "key " ++ key ++ lit " enum " ++ join (lit "|") choices ++ lit " " ++ d ++ minor_mark minor
  | OText key d minor => s = lit "key " ++ key ++ lit " string * " ++ d ++ minor_mark minor
  end.
(** A value on the wire. *)
Definition value_written (s : str) (v : option_value) : Prop :=
  match v with
  | OVInt n => integer s n
  | OVBool b => s = if b then lit "true" else lit "false"
  | OVChoice t => s = t
  | OVText t => s = t
  end.
