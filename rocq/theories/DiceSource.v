(** Model of the dice sources of /repo/src/dice_gen.rs as values a game can be played with:
    [FastrandDice] over an arbitrary random number generator, and [DiceGenMock]. *)
From Verif Require Export Game Float32.
Open Scope nat_scope.

(** The part of [fastrand::Rng] that is used (dice_gen.rs:30-32, 36, 44, 58, 82-86, 92-94): a state, made
    from a seed, that draws a number below [n] ([usize(0..n)], [u32(0..n)]) or any 64-bit number
    ([u64(..)]).  The dependency itself is not modelled: every theorem ranges over all such state
    machines. *)
Record rng (S : Type) : Type := {
  rng_with_seed : Z -> S;
  rng_below : nat -> S -> nat * S;
  rng_u64 : S -> Z * S
}.
Arguments rng_with_seed {S} _ _.
Arguments rng_below {S} _ _ _.
Arguments rng_u64 {S} _ _.

(** dice_gen.rs:36-41: [FastrandDice::roll], with its draw. *)
Definition fr_roll {S} (m : mode) (R : rng S) (s : S) : res (dice * S) :=
  let '(random, s) := rng_below R 36 s in
  d <- fastrand_roll m random ;; Ret (d, s).

(** dice_gen.rs:43-54: [FastrandDice::roll_mixed]. *)
Definition fr_roll_mixed {S} (m : mode) (R : rng S) (s : S) : res (dice * S) :=
  let '(random, s) := rng_below R 30 s in
  d <- fastrand_roll_mixed m random ;; Ret (d, s).

(** dice_gen.rs:56-71: [FastrandDice::choose_index] on 32-bit floats (Float32.v; [minus] as there). *)
Definition fr_choose_index {S} (m : mode) (minus : bool) (R : rng S) (chances : list f32) (s : S) : res (Z * S) :=
  let '(random, s) := rng_below R (Z.to_nat 1000000) s in
  i <- choose_index_f32 m minus (Z.of_nat random) chances ;; Ret (i, s).

(** dice_gen.rs:82-86: [FastrandDice::with_seed]. *)
Definition fr_with_seed {S} (R : rng S) (seed : Z) : S := rng_with_seed R seed.

(** dice_gen.rs:92-94: [FastrandDice::seed]. *)
Definition fr_seed {S} (R : rng S) (s : S) : Z * S := rng_u64 R s.

(** dice_gen.rs:34-54: [FastrandDice] as a dice generator for games. *)
Definition fastrand_gen {S} (m : mode) (R : rng S) : dice_gen S :=
  {| gen_roll := fr_roll m R; gen_roll_mixed := fr_roll_mixed m R |}.

(** dice_gen.rs:11-21, 108-113: [DiceGenMock] as a dice generator for games; [roll_mixed] is the default
    loop.  Each round uses up one die of the list or panics, so the loop ends within one
    round more than there are dice: [None] (fuel used up) never happens. *)
Definition mock_gen : dice_gen mock :=
  {| gen_roll := mock_roll;
     gen_roll_mixed := fun g =>
       r <- roll_mixed_loop mock_roll (S (length (mock_dice g))) g ;;
       match r with Some x => Ret x | None => Panic Todo end |}.
