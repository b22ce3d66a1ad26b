(** Independent specification for C99: the rolls a dice source gives one after the other, and watching them.  Read with
    SpecEpisode.v. *)
From Verif Require Export SpecEpisode.
Unset Implicit Arguments.

(** [n] rolls in a row: the opening roll with [roll_mixed], the others with [roll]. *)
Inductive later_rolls {G} (D : dice_gen G) : G -> list dice -> G -> Prop :=
| later_none dg : later_rolls D dg [] dg
| later_one dg d dg1 l dg2 : gen_roll D dg = Ret (d, dg1) -> later_rolls D dg1 l dg2 -> later_rolls D dg (d :: l) dg2.
Inductive rolls_in_a_row {G} (D : dice_gen G) : G -> list dice -> G -> Prop :=
| row_none dg : rolls_in_a_row D dg [] dg
| row_some dg d dg1 l dg2 : gen_roll_mixed D dg = Ret (d, dg1) -> later_rolls D dg1 l dg2 -> rolls_in_a_row D dg (d :: l) dg2.

(** The same policy, keeping a record of the dice it is shown. *)
Definition watching {S} (P : policy S) : policy (S * list dice) := fun s v d l =>
  (fst (P (fst s) v d l), (snd (P (fst s) v d l), snd s ++ [d])).

(** The same dice source for a game that has been opened: every roll may be a double. *)
Definition opened {G} (D : dice_gen G) : dice_gen G := {| gen_roll := gen_roll D; gen_roll_mixed := gen_roll D |}.

(** The result of an episode after [n] earlier plies. *)
Definition plus {G S} (n : nat) (r : res (gres nat * game * G * S)) : res (gres nat * game * G * S) :=
  match r with Ret (GOk k, g, dg, ps) => Ret (GOk (n + k)%nat, g, dg, ps) | r => r end.

(** The plies were used up and the game goes on. *)
Definition cut_short {G S} (m : mode) (n : nat) (r : res (gres nat * game * G * S)) : Prop :=
  match r with Ret (GOk k, g, _, _) => k = n /\ vp_game_state m (g_position g) = Ret Ongoing | _ => False end.
