(** Model of /repo/src/dice.rs and /repo/src/dice_gen.rs. *)
From Verif Require Export Base.
Open Scope nat_scope.

(** dice.rs:2-6 and 17-22: [Dice] and [MixedDice {big, small}]; the struct is inlined
    into the constructor. *)
Inductive dice : Type :=
| Mixed (big small : nat)
| Double (d : nat).

(** dice.rs:142-150: [MixedDice::new]. *)
Definition mixed_new (die1 die2 : nat) : dice :=
  let '(big, small) := if die2 <? die1 then (die1, die2) else (die2, die1) in
  Mixed big small.

(** dice.rs:39-50: [Dice::new]. *)
Definition dice_new (m : mode) (die1 die2 : nat) : res dice :=
  debug_assert m (0 <? die1) ;;;
  debug_assert m (die1 <? 7) ;;;
  debug_assert m (0 <? die2) ;;;
  debug_assert m (die2 <? 7) ;;;
  if die1 =? die2 then Ret (Double die1) else Ret (mixed_new die1 die2).

(** dice.rs:120-130: [TryFrom<(usize, usize)>].  [None] is the [Err] value (the only
    error message is a constant). *)
Definition dice_try_from (m : mode) (a b : nat) : res (option dice) :=
  if (a <? 1) || (6 <? a) || (b <? 1) || (6 <? b) then Ret None
  else d <- dice_new m a b ;; Ret (Some d).

(** dice.rs:69-78: [all_6_double]. The array is filled in index order. *)
Definition all_6_double (m : mode) : res (list dice) :=
  mmap (fun i => dice_new m (i + 1) (i + 1)) (range 0 6).

(** dice.rs:80-97: [all_15_mixed]; 36: [ALL_SINGLES]. *)
Definition all_15_mixed (m : mode) : res (list dice) :=
  mflat_map (fun i => mmap (fun j => dice_new m (i + 1) (j + 1)) (range (i + 1) 6)) (range 0 6).

(** dice.rs:99-117: [all_21]; 34: [ALL_21]. *)
Definition all_21 (m : mode) : res (list (dice * nat)) :=
  mflat_map (fun i =>
    d <- dice_new m (i + 1) (i + 1) ;;
    l <- mmap (fun j => e <- dice_new m (i + 1) (j + 1) ;; Ret (e, 2)) (range (i + 1) 6) ;;
    Ret ((d, 1) :: l)) (range 0 6).

(** dice.rs:51-67: [all_441]; 29: [ALL_441]. *)
Definition all_441 (m : mode) : res (list (dice * dice * nat)) :=
  dice_21 <- all_21 m ;;
  mflat_map (fun i =>
    mflat_map (fun j =>
      a <- index dice_21 i ;;
      b <- index dice_21 j ;;
      Ret [(fst a, fst b, snd a * snd b)]) (range 0 21)) (range 0 21).

(** dice_gen.rs:36-41: [FastrandDice::roll]; [random] is the value drawn by
    [generator.usize(0..36)]. *)
Definition fastrand_roll (m : mode) (random : nat) : res dice :=
  let die1 := random / 6 + 1 in
  let die2 := random mod 6 + 1 in
  dice_new m die1 die2.

(** dice_gen.rs:43-54: [FastrandDice::roll_mixed]; [random] drawn from [0..30]. *)
Definition fastrand_roll_mixed (m : mode) (random : nat) : res dice :=
  let die1 := random / 6 + 1 in
  let die2 := random mod 6 + 1 in
  let die1 := if die2 <=? die1 then die1 + 1 else die1 in
  dice_new m die1 die2.

(** dice_gen.rs:63-70: the selection loop of [choose_index].  [f32] is abstract:
    any carrier with any addition and any (possibly partial) comparison. *)
Fixpoint choose_loop {F} (add : F -> F -> F) (gt : F -> F -> bool) (threshold sum : F)
         (i : nat) (chances : list F) : option nat :=
  match chances with
  | [] => None
  | v :: r => let sum := add sum v in
              if gt sum threshold then Some i else choose_loop add gt threshold sum (S i) r
  end.

(** dice_gen.rs:56-71: [choose_index].  [of_u32] is the cast [as f32]; [zero] is 0.0;
    [iter().sum::<f32>()] starts from some float [sum0] (0.0 or -0.0 depending on
    the std version).  [chances.len() - 1] underflows for an empty slice: a panic in
    debug builds, usize::MAX in release builds. *)
Definition choose_index {F} (m : mode) (add mul div : F -> F -> F) (gt : F -> F -> bool)
           (zero sum0 : F) (of_u32 : Z -> F) (random_number : Z) (chances : list F) : res Z :=
  let big_number := 1000000%Z in
  let threshold := mul (div (fold_left add chances sum0) (of_u32 big_number)) (of_u32 random_number) in
  match choose_loop add gt threshold zero 0 chances with
  | Some i => Ret (Z.of_nat i)
  | None => u64 m (Z.of_nat (length chances) - 1)
  end.

(** dice_gen.rs:103-106: [DiceGenMock]. *)
Record mock := { mock_dice : list dice; no_calls : nat }.

(** dice_gen.rs:121-126: [DiceGenMock::new]. *)
Definition mock_new (l : list dice) : mock := {| mock_dice := l; no_calls := 0 |}.

(** dice_gen.rs:109-113: [DiceGenMock::roll]. *)
Definition mock_roll (g : mock) : res (dice * mock) :=
  d <- index (mock_dice g) (no_calls g) ;;
  Ret (d, {| mock_dice := mock_dice g; no_calls := S (no_calls g) |}).

(** dice_gen.rs:115-117: [DiceGenMock::choose_index]. *)
Definition mock_choose_index {F} (g : mock) (chances : list F) : Z := 0%Z.

(** dice_gen.rs:128-134: [assert_all_dice_were_used]. *)
Definition mock_assert_all_used (g : mock) : res unit :=
  if length (mock_dice g) =? no_calls g then Ret tt else Panic Unwrapped.

(** dice_gen.rs:11-21: the default [DiceGen::roll_mixed] loop over an arbitrary roll
    function.  The loop has no bound: [fuel] bounds the number of rolls and [None]
    means that the loop has not finished within the fuel. *)
Fixpoint roll_mixed_loop {G} (roll : G -> res (dice * G)) (fuel : nat) (g : G)
  : res (option (dice * G)) :=
  match fuel with
  | O => Ret None
  | S fuel =>
      '(d, g') <- roll g ;;
      match d with
      | Mixed _ _ => Ret (Some (d, g'))
      | Double _ => roll_mixed_loop roll fuel g'
      end
  end.
