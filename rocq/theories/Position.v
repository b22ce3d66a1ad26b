(** Model of /repo/src/position.rs (without the board printer [show]). *)
From Verif Require Export Base Dice.
Open Scope Z_scope.

(** position.rs:16-17. *)
Definition X_BAR : nat := 25.
(** position.rs:17: [O_BAR]. *)
Definition O_BAR : nat := 0.

(** position.rs:26-33. *)
Inductive game_result : Type :=
| WinNormal | WinGammon | WinBackgammon | LoseNormal | LoseGammon | LoseBackgammon.

(** position.rs:36-45: [GameResult::reverse]. *)
Definition reverse (r : game_result) : game_result :=
  match r with
  | WinNormal => LoseNormal
  | WinGammon => LoseGammon
  | WinBackgammon => LoseBackgammon
  | LoseNormal => WinNormal
  | LoseGammon => WinGammon
  | LoseBackgammon => WinBackgammon
  end.

(** position.rs:47-52: [GameResult::is_win]. *)
Definition is_win (r : game_result) : bool :=
  match r with
  | WinNormal | WinGammon | WinBackgammon => true
  | LoseNormal | LoseGammon | LoseBackgammon => false
  end.

(** position.rs:54-63: [GameResult::value]; the f32 constants are small integers. *)
Definition value (r : game_result) : Z :=
  match r with
  | WinNormal => 1 | WinGammon => 2 | WinBackgammon => 3
  | LoseNormal => -1 | LoseGammon => -2 | LoseBackgammon => -3
  end.

(** position.rs:66-82. *)
Inductive game_state_t : Type := Ongoing | GameOver (r : game_result).
(** position.rs:72-76: [OngoingPhase]. *)
Inductive ongoing_phase : Type := Contact | Race.
(** position.rs:78-82: [GamePhase]. *)
Inductive game_phase : Type := POngoing (p : ongoing_phase) | PGameOver (r : game_result).

(** position.rs:173-183: [Position<N>].  [pips] is the [i8; 26] array as a list. The
    const generic N is passed as a Z argument where it is used. *)
Record position : Type := {
  turn : bool;
  pips : list Z;
  x_off : Z;
  o_off : Z
}.

(** position.rs:185-189: [PartialEq] (turn ignored). *)
Definition position_eqb (p q : position) : bool :=
  (if list_eq_dec Z.eq_dec (pips p) (pips q) then true else false)
  && (x_off p =? x_off q) && (o_off p =? o_off q).

(** position.rs:193-200: what [Hash] feeds to the hasher: the pips, then x_off, o_off. *)
Definition hash_feed (p : position) : list Z := pips p ++ [x_off p; o_off p].

(** position.rs:218-228: [x_bar], [o_bar]. *)
Definition x_bar (p : position) : res Z :=
  v <- index (pips p) X_BAR ;; Ret (as_u8 v).
(** position.rs:224-228: [o_bar]; the unary minus binds tighter than [as]. *)
Definition o_bar (m : mode) (p : position) : res Z :=
  v <- index (pips p) O_BAR ;; n <- i8 m (- v) ;; Ret (as_u8 n).

(** position.rs:230-234: [pip]. *)
Definition pip (p : position) (i : nat) : res Z := index (pips p) i.

(** position.rs:297-299: [board] is unimplemented. *)
Definition board (p : position) : res (list Z) := Panic Todo.

(** position.rs:236-261: [game_state]. *)
Definition game_state (m : mode) (N : Z) (p : position) : res game_state_t :=
  debug_assert m ((x_off p <? N) || (o_off p <? N)) ;;;
  if x_off p =? N then
    if 0 <? o_off p then Ret (GameOver WinNormal)
    else if existsb (fun v => v <? 0) (slice (pips p) O_BAR 7) then Ret (GameOver WinBackgammon)
    else Ret (GameOver WinGammon)
  else if o_off p =? N then
    if 0 <? x_off p then Ret (GameOver LoseNormal)
    else if existsb (fun v => 0 <? v) (slice (pips p) 19 (X_BAR + 1)) then Ret (GameOver LoseBackgammon)
    else Ret (GameOver LoseGammon)
  else Ret Ongoing.

(** position.rs:100-124: the default [State::game_state], which goes through the
    accessors.  [any] over a range of pips short-circuits; pips 1..=24 always exist. *)
Definition game_state_default (m : mode) (N : Z) (p : position) : res game_state_t :=
  debug_assert m ((x_off p <? N) || (o_off p <? N)) ;;;
  if x_off p =? N then
    if 0 <? o_off p then Ret (GameOver WinNormal)
    else
      ob <- o_bar m p ;;
      vs <- mmap (fun i => pip p i) (range 1 7) ;;
      if (0 <? ob) || existsb (fun v => v <? 0) vs then Ret (GameOver WinBackgammon)
      else Ret (GameOver WinGammon)
  else if o_off p =? N then
    if 0 <? x_off p then Ret (GameOver LoseNormal)
    else
      xb <- x_bar p ;;
      vs <- mmap (fun i => pip p i) (range 19 25) ;;
      if (0 <? xb) || existsb (fun v => 0 <? v) vs then Ret (GameOver LoseBackgammon)
      else Ret (GameOver LoseGammon)
  else Ret Ongoing.

(** position.rs:267-291: [phase]. *)
Definition phase (m : mode) (N : Z) (p : position) : res game_phase :=
  gs <- game_state m N p ;;
  match gs with
  | GameOver r => Ret (PGameOver r)
  | Ongoing =>
      match rposition_of (fun v => 0 <? v) (pips p) with
      | None => Panic Unwrapped
      | Some last_own_checker =>
          match position_of (fun v => v <? 0) (pips p) with
          | None => Panic Unwrapped
          | Some last_opponent_checker =>
              if (last_opponent_checker <? last_own_checker)%nat
              then Ret (POngoing Contact) else Ret (POngoing Race)
          end
      end
  end.

(** position.rs:301-313: [flip].  The loop writes -pips[i] at 25-i for i = 0..25, i.e.
    the negated array reversed; the negation is an i8 operation. *)
Definition flip (m : mode) (p : position) : res position :=
  l <- mmap (fun v => i8 m (- v)) (pips p) ;;
  Ret {| turn := negb (turn p); pips := rev l; x_off := o_off p; o_off := x_off p |}.

(** position.rs:353-381: [TryFrom<[i8; 26]>].  [N as i8] wraps. [inl k] is the k-th
    error message. *)
Inductive try_err : Type := XTooMany | OTooMany | XBarNegative | OBarPositive.
(** position.rs:360-380: [try_from]. *)
Definition try_from (m : mode) (N : Z) (ps : list Z) : res (try_err + position) :=
  sx <- sum_i8 m (filter (fun v => 0 <? v) ps) ;;
  xo <- i8 m (as_i8 N - sx) ;;
  so <- sum_i8 m (filter (fun v => v <? 0) ps) ;;
  oo <- i8 m (as_i8 N + so) ;;
  if xo <? 0 then Ret (inl XTooMany)
  else if oo <? 0 then Ret (inl OTooMany)
  else
    vx <- index ps X_BAR ;;
    if vx <? 0 then Ret (inl XBarNegative)
    else
      vo <- index ps O_BAR ;;
      if 0 <? vo then Ret (inl OBarPositive)
      else Ret (inr {| turn := true; pips := ps; x_off := as_u8 xo; o_off := as_u8 oo |}).

(** position.rs:427-443: [move_single_checker] (returning the new value). *)
Definition move_single_checker (m : mode) (p : position) (from die : nat) : res position :=
  v <- index (pips p) from ;;
  v1 <- i8 m (v - 1) ;;
  ps <- assign (pips p) from v1 ;;
  if (die <? from)%nat then
    t <- usub m from die ;;
    w <- index ps t ;;
    if w =? -1 then
      ps1 <- assign ps t 1 ;;
      b <- index ps1 O_BAR ;;
      b1 <- i8 m (b - 1) ;;
      ps2 <- assign ps1 O_BAR b1 ;;
      Ret {| turn := turn p; pips := ps2; x_off := x_off p; o_off := o_off p |}
    else
      w1 <- i8 m (w + 1) ;;
      ps1 <- assign ps t w1 ;;
      Ret {| turn := turn p; pips := ps1; x_off := x_off p; o_off := o_off p |}
  else
    xo <- u8 m (x_off p + 1) ;;
    Ret {| turn := turn p; pips := ps; x_off := xo; o_off := o_off p |}.

(** position.rs:445-450: [clone_and_move_single_checker]: same value, on a copy. *)
Definition clone_and_move_single_checker := move_single_checker.

(** position.rs:452-470: [can_move_internally]. *)
Definition can_move_internally (m : mode) (p : position) (from die : nat) : res bool :=
  v <- index (pips p) from ;;
  if v <? 1 then Ret false
  else if (die <? from)%nat then
    t <- usub m from die ;;
    w <- index (pips p) t ;;
    Ret (-2 <? w)
  else if (from =? die)%nat then
    Ret (negb (existsb (fun x => 0 <? x) (slice (pips p) 7 X_BAR)))
  else
    (* [pips[from + 1..X_BAR]] panics if from + 1 > 25 *)
    if (X_BAR <? from + 1)%nat then Panic IndexOOB
    else Ret (negb (existsb (fun x => 0 <? x) (slice (pips p) (from + 1) X_BAR))).

(** position.rs:472-479: [can_move]. *)
Definition can_move (m : mode) (p : position) (from die : nat) : res bool :=
  b <- index (pips p) X_BAR ;;
  if Bool.eqb (from =? X_BAR)%nat (0 <? b) then can_move_internally m p from die
  else Ret false.

(** position.rs:481-495: [can_move_when_bearoff_is_legal]. *)
Definition can_move_when_bearoff_is_legal (m : mode) (p : position) (from die : nat) : res bool :=
  v <- index (pips p) from ;;
  if v <? 1 then Ret false
  else if (die <? from)%nat then
    t <- usub m from die ;;
    w <- index (pips p) t ;;
    Ret (-2 <? w)
  else Ret true.

(** position.rs:497-515: [smallest_pip_to_check]. *)
Definition smallest_pip_to_check (p : position) (die : nat) : nat :=
  match rposition_of (fun v => 0 <? v) (pips p) with
  | None => (X_BAR + 1)%nat
  | Some biggest_checker =>
      if (6 <? biggest_checker)%nat then (die + 1)%nat else Nat.min biggest_checker die
  end.

(** position.rs:517-523: [try_move_single_checker]. *)
Definition try_move_single_checker (m : mode) (p : position) (from die : nat)
  : res (option position) :=
  c <- can_move m p from die ;;
  if c then q <- clone_and_move_single_checker m p from die ;; Ret (Some q)
  else Ret None.
