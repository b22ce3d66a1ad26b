(** Independent specification for property C79: records of games and replaying them. *)
From Verif Require Export SpecGame SpecDice SpecEpisode DiceSource.
Open Scope nat_scope.

(** A record: for each play the roll and the position after it.  [recorded v l u]: from [v] these are
    legal plays, each made while the game goes on, and they lead to [u]. *)
Inductive recorded : vpos -> list (dice * vpos) -> vpos -> Prop :=
| recorded_end v : recorded v [] v
| recorded_play v d w l u : vongoing v -> valid_dice d -> vlegal d v w -> recorded w l u ->
    recorded v ((d, w) :: l) u.

(** The first roll of a game is not a double. *)
Definition opens_mixed (l : list (dice * vpos)) : Prop :=
  match l with [] => True | (d, _) :: _ => is_mixed d = true end.

(** The policy that replays: it points to the first listed position that is equal ([==]) to the next
    recorded one, to the first one if there is none. *)
Fixpoint where_is (w : vpos) (l : list vpos) : nat :=
  match l with [] => 0 | v :: l' => if vpos_eqb v w then 0 else S (where_is w l') end.
Definition replaying : policy (list vpos) := fun ws _ _ l =>
  match ws with
  | [] => (0, [])
  | w :: ws' => (where_is w l, ws')
  end.
