(** Independent specification of game histories (C23) and episodes (C25). *)
From Verif Require Export SpecGame Game.
Open Scope Z_scope.

(** A source of valid dice: rolls never panic and show values 1..6, and the opening roll is
    never a double. *)
Definition fair_gen {G} (D : dice_gen G) : Prop :=
  (forall g, exists d g', gen_roll D g = Ret (d, g') /\ valid_dice d) /\
  (forall g, exists d g', gen_roll_mixed D g = Ret (d, g') /\ valid_dice d /\
             exists big small, d = Mixed big small).

(** The two rule sets of the library. *)
Inductive rule_set (m : mode) : rules -> Prop :=
| rs_classic : rule_set m (classic_rules m)
| rs_no_hit : rule_set m (no_hit_rules m).

(** One call on a [Game] that returns (with success or with an error): a position handed to
    [set_position] is well-formed for its own variant; rolls are valid dice. *)
Inductive call (m : mode) : game -> game -> Prop :=
| call_set g p r g' : vwf (vp_variant p) p -> set_position g p = (r, g') -> call m g g'
| call_reset g : call m g (reset g)
| call_apply R g d i r g' : rule_set m R -> valid_dice d ->
    apply_nth_with R g d i = Ret (r, g') -> call m g g'
| call_episode R G S (D : dice_gen G) (P : policy S) n g dg ps r g' dg' ps' :
    rule_set m R -> fair_gen D ->
    play_episode_with m R D P n g dg ps = Ret (r, g', dg', ps') -> call m g g'.

(** The games a program can hold. *)
Inductive reachable (m : mode) : game -> Prop :=
| reach_new v : reachable m (game_new v)
| reach_call g g' : reachable m g -> call m g g' -> reachable m g'.

(** [n] plies of an episode, starting with ply number [ply]: while the game goes on, dice are
    rolled (the opening roll with [roll_mixed]), the policy is shown the position, the roll
    and the listed positions, and the position it points to becomes the position. *)
Inductive plies {G S} (R : rules) (D : dice_gen G) (P : policy S)
  : nat -> vpos * G * S -> nat -> vpos * G * S -> Prop :=
| plies_0 ply s : plies R D P ply s 0%nat s
| plies_S ply v dg ps d dg1 l i ps1 w n s' :
    vongoing v ->
    (if (ply =? 0)%nat then gen_roll_mixed D dg else gen_roll D dg) = Ret (d, dg1) ->
    R v d = Ret l -> P ps v d l = (i, ps1) -> nth_error l i = Some w ->
    plies R D P (ply + 1) (w, dg1, ps1) n s' ->
    plies R D P ply (v, dg, ps) (Datatypes.S n) s'.

(** After those plies the policy points outside the (non-empty) list of positions. *)
Definition policy_fails {G S} (R : rules) (D : dice_gen G) (P : policy S) (ply : nat)
           (s : vpos * G * S) (dg' : G) (ps' : S) : Prop :=
  let '(v, dg, ps) := s in
  exists d l i, (if (ply =? 0)%nat then gen_roll_mixed D dg else gen_roll D dg) = Ret (d, dg') /\
    R v d = Ret l /\ l <> [] /\ P ps v d l = (i, ps') /\ (length l <= i)%nat.

(** After those plies the rule set lists nothing. *)
Definition no_moves {G} (R : rules) (D : dice_gen G) (ply : nat) (v : vpos) (dg dg' : G) : Prop :=
  exists d, (if (ply =? 0)%nat then gen_roll_mixed D dg else gen_roll D dg) = Ret (d, dg') /\
    R v d = Ret [].
