(** Independent specification: well-formed positions and the rules of backgammon,
    stated on what [pip(i)], [x_off()], [o_off()] show.  Nothing here refers to the
    move generator.  The mover is always "x": x checkers are positive, move from high
    points to low points, point 25 is x's bar, point 0 is o's bar. *)
From Verif Require Export Position.
From Coq Require Import Permutation.
Open Scope Z_scope.

(** What [pip(i)] shows. *)
Definition pt (p : position) (i : nat) : Z := nth i (pips p) 0.

Definition sumZ (l : list Z) : Z := fold_right Z.add 0 l.

(** Checkers of x / o: borne off plus on the board and bar. *)
Definition x_checkers (p : position) : Z := x_off p + sumZ (map (fun v => Z.max 0 v) (pips p)).
Definition o_checkers (p : position) : Z := o_off p + sumZ (map (fun v => Z.max 0 (- v)) (pips p)).

(** A well-formed position with N checkers per side. *)
Record wf (N : Z) (p : position) : Prop := {
  wf_N : 1 <= N <= 127;
  wf_len : length (pips p) = 26%nat;
  wf_xoff : 0 <= x_off p;
  wf_ooff : 0 <= o_off p;
  wf_x : x_checkers p = N;
  wf_o : o_checkers p = N;
  wf_xbar : 0 <= pt p 25;
  wf_obar : pt p 0 <= 0
}.

(** Nobody has borne off everything. *)
Definition ongoing (N : Z) (p : position) : Prop := x_off p < N /\ o_off p < N.

(** A roll of two dice. *)
Definition valid_die (d : nat) : Prop := (1 <= d <= 6)%nat.
Definition valid_dice (d : dice) : Prop :=
  match d with
  | Double a => valid_die a
  | Mixed big small => valid_die big /\ valid_die small /\ (small < big)%nat
  end.

(** The rules allow moving one checker from [from] with a die showing [die]:
    there is a checker; checkers on the bar enter first; a point held by two or more
    opposing checkers is blocked; bearing off needs all checkers in the home board
    (points 1-6) and the exact die, or a larger die and no checker further back. *)
Definition may_move (p : position) (die from : nat) : Prop :=
  (1 <= from <= 25)%nat /\
  0 < pt p from /\
  (from <> 25%nat -> pt p 25 <= 0) /\
  ((die < from)%nat -> -2 < pt p (from - die)) /\
  ((from <= die)%nat ->
     (forall i, (6 < i <= 25)%nat -> pt p i <= 0) /\
     ((from < die)%nat -> forall i, (from < i <= 25)%nat -> pt p i <= 0)).

(** The effect of that move: the checker leaves [from]; it lands on [from - die], or is
    borne off; a single opposing checker there goes to o's bar; nothing else changes. *)
Definition hits (p : position) (die from : nat) : Prop :=
  (die < from)%nat /\ pt p (from - die) = -1.
Record moved (p : position) (die from : nat) (q : position) : Prop := {
  mvd_turn : turn q = turn p;
  mvd_len : length (pips q) = 26%nat;
  mvd_xoff : x_off q = x_off p + (if (from <=? die)%nat then 1 else 0);
  mvd_ooff : o_off q = o_off p;
  mvd_from : pt q from = pt p from - 1;
  mvd_land : (die < from)%nat -> pt p (from - die) <> -1 ->
             pt q (from - die) = pt p (from - die) + 1;
  mvd_hit : hits p die from -> pt q (from - die) = 1 /\ pt q 0 = pt p 0 - 1;
  mvd_nohit : ~ hits p die from -> pt q 0 = pt p 0;
  mvd_rest : forall i, (1 <= i < 26)%nat -> i <> from ->
             ~ ((die < from)%nat /\ i = (from - die)%nat) -> pt q i = pt p i
}.

(** Playing a list of dice one after the other. *)
Inductive plays : list nat -> position -> position -> Prop :=
| plays_nil p : plays [] p p
| plays_cons d ds p from q r :
    may_move p d from -> moved p d from q -> plays ds q r -> plays (d :: ds) p r.

(** The dice values a roll provides, and the sequences one may use of them. *)
Definition pool (d : dice) : list nat :=
  match d with Double a => [a; a; a; a] | Mixed big small => [big; small] end.
Definition uses (d : dice) (ds : list nat) : Prop :=
  exists rest, Permutation (ds ++ rest) (pool d).

(** [r] (still seen from the mover's side) is the result of a legal play of roll [d]
    from [p]: as many dice as possible are used, and if only one can be used it is the
    largest playable one. *)
Definition legal_play (d : dice) (p : position) (ds : list nat) (r : position) : Prop :=
  uses d ds /\ plays ds p r /\
  (forall ds' r', uses d ds' -> plays ds' p r' -> (length ds' <= length ds)%nat) /\
  (forall a, ds = [a] -> forall b r', uses d [b] -> plays [b] p r' -> (b <= a)%nat).

Definition legal_result (d : dice) (p r : position) : Prop :=
  exists ds, legal_play d p ds r.

(** The same position seen from the other side. *)
Definition mirrored (p q : position) : Prop :=
  turn q = negb (turn p) /\ x_off q = o_off p /\ o_off q = x_off p /\
  length (pips q) = 26%nat /\
  forall i, (i <= 25)%nat -> pt q i = - pt p (25 - i).

(** Pip counts: how far x (o) still has to go. *)
Definition x_pips (p : position) : Z :=
  sumZ (map (fun i => Z.of_nat i * Z.max 0 (pt p i)) (seq 0 26)).
Definition o_pips (p : position) : Z :=
  sumZ (map (fun i => (25 - Z.of_nat i) * Z.max 0 (- pt p i)) (seq 0 26)).

(** Sum of the dice used. *)
Definition dice_sum (ds : list nat) : Z := sumZ (map Z.of_nat ds).

(** o's blots hit between [p] and [r]: a single o checker on point [i] before and no o
    checker there afterwards.  [hit_distance] adds up the numbers of those points. *)
Definition lost (p r : position) (i : nat) : Z :=
  if (pt p i =? -1) && (0 <=? pt r i) then 1 else 0.
Definition hit_distance (p r : position) : Z :=
  sumZ (map (fun i => Z.of_nat i * lost p r i) (seq 1 24)).
