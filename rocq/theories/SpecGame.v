(** Independent specification of game results, phases and sequences of plays. *)
From Verif Require Export SpecVariants.
Open Scope Z_scope.

(** Result of a position from the mover's (x's) side.
    x wins when all N x checkers are off; the win counts single if o has borne off a checker,
    triple if o has none off and still has a checker in x's home board (points 1-6) or on
    the bar (point 0), double otherwise; symmetrically for o, whose home board is 19-24 and
    whose victim's bar is point 25. *)
Definition o_caught (p : position) : Prop := exists i, (i <= 6)%nat /\ pt p i < 0.
Definition x_caught (p : position) : Prop := exists i, (19 <= i <= 25)%nat /\ 0 < pt p i.
Inductive outcome (N : Z) (p : position) : game_state_t -> Prop :=
| out_ongoing : x_off p < N -> o_off p < N -> outcome N p Ongoing
| out_win1 : x_off p = N -> 0 < o_off p -> outcome N p (GameOver WinNormal)
| out_win2 : x_off p = N -> o_off p = 0 -> ~ o_caught p -> outcome N p (GameOver WinGammon)
| out_win3 : x_off p = N -> o_off p = 0 -> o_caught p -> outcome N p (GameOver WinBackgammon)
| out_lose1 : x_off p < N -> o_off p = N -> 0 < x_off p -> outcome N p (GameOver LoseNormal)
| out_lose2 : x_off p < N -> o_off p = N -> x_off p = 0 -> ~ x_caught p ->
              outcome N p (GameOver LoseGammon)
| out_lose3 : x_off p < N -> o_off p = N -> x_off p = 0 -> x_caught p ->
              outcome N p (GameOver LoseBackgammon).

(** Not both players have borne off everything (no play leads there). *)
Definition not_both_won (N : Z) (p : position) : Prop := x_off p < N \/ o_off p < N.

Definition reverse_state (s : game_state_t) : game_state_t :=
  match s with Ongoing => Ongoing | GameOver r => GameOver (reverse r) end.

(** Every x checker has passed every o checker: nobody can ever hit again. *)
Definition no_contact (p : position) : Prop :=
  forall i j, (i <= 25)%nat -> (j <= 25)%nat -> 0 < pt p i -> pt p j < 0 -> (i < j)%nat.

(** [w] is reached from [v] by [n] legal plays with valid dice, the game going on before
    each of them. *)
Inductive played : nat -> vpos -> vpos -> Prop :=
| played_0 v : played 0 v v
| played_S n v w u d : vongoing v -> valid_dice d -> vlegal d v w -> played n w u ->
    played (S n) v u.

(** Checkers on the board and bars of a raw 26-array. *)
Definition x_count (ps : list Z) : Z := sumZ (map (fun v => Z.max 0 v) ps).
Definition o_count (ps : list Z) : Z := sumZ (map (fun v => Z.max 0 (- v)) ps).

(** The specification of [try_from]: what the answer must be. *)
Definition acceptable (N : Z) (ps : list Z) : Prop :=
  x_count ps <= N /\ o_count ps <= N /\ 0 <= nth 25 ps 0 /\ nth 0 ps 0 <= 0.
Definition try_answer (N : Z) (ps : list Z) (r : try_err + position) : Prop :=
  match r with
  | inr p => acceptable N ps /\ wf N p /\ pips p = ps /\ turn p = true /\
             x_off p = N - x_count ps /\ o_off p = N - o_count ps
  | inl _ => ~ acceptable N ps
  end.
