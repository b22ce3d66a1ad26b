(** Model of /repo/src/bin/bkgm-perft.rs and of the counting in /repo/src/bin/corpus-bench.rs.
    The printed lines, with times, averages and rates, are in Printed.v (the printed integers are the fields of
    [report]).  Not modelled: the clock. *)
From Coq Require Import Strings.String.
From Verif Require Export Rules Gnuid.
Open Scope Z_scope.

(** bkgm-perft.rs:22-36: u128 arithmetic (checked in debug builds, wrapping in release builds). *)
Definition u128 (m : mode) (z : Z) : res Z :=
  if (0 <=? z) && (z <? 2 ^ 128) then Ret z
  else match m with Debug => Panic Overflow | Release => Ret (z mod 2 ^ 128) end.

(** bkgm-perft.rs:22-36: [perft_all_rolls_n].  [depth] is a usize. *)
Fixpoint perft (m : mode) (N : Z) (position_ : position) (depth : nat) (weighted : bool) : res Z :=
  match depth with
  | O => Ret 1
  | S depth' =>
      rolls <- all_21 m ;;
      mfold (fun total '(dice_, count) =>
        let mult := if weighted then Z.of_nat count else 1 in
        legal <- classic_positions m N position_ dice_ ;;
        mfold (fun total next =>
          sub <- perft m N next depth' weighted ;;
          prod <- u128 m (mult * sub) ;;
          u128 m (total + prod)) legal total) rolls 0
  end.

(** corpus-bench.rs:32-40: [run_once]. *)
Definition run_once (m : mode) (positions : list position) : res Z :=
  mfold (fun total pos =>
    rolls <- all_21 m ;;
    mfold (fun total '(dice_, _) =>
      legal <- classic_positions m 15 pos dice_ ;; u64 m (total + Z.of_nat (List.length legal))) rolls total)
  positions 0.

(** bkgm-perft.rs:12-16 ([args.windows(2).find(|w| w[0] == name)]), for a set of names. *)
Fixpoint find_flag (is_name : str -> bool) (args : list str) : option str :=
  match args with
  | a :: (b :: _) as rest => if is_name a then Some b else find_flag is_name rest
  | _ => None
  end.
(** bkgm-perft.rs:12-16: [parse_usize_flag]. *)
Definition parse_usize_flag (args : list str) (name : str) : option Z :=
  match find_flag (fun a => str_eqb a name) args with Some v => parse_usize v | None => None end.
(** bkgm-perft.rs:18-20: [has_flag]. *)
Definition has_flag (args : list str) (name : str) : bool := existsb (fun a => str_eqb a name) args.

(** bkgm-perft.rs:48-69: [parse_variant_flag]. *)
Definition parse_variant_flag (args : list str) : res variant :=
  let raw := match find_flag (fun a => str_eqb a (lit "--variant") || str_eqb a (lit "-v")) args with
             | Some v => lower v | None => lit "backgammon" end in
  match variant_from_str raw with
  | Some v => Ret v
  | None =>
      if str_eqb raw (lit "bg") then Ret Backgammon
      else if str_eqb raw (lit "nack") then Ret Nackgammon
      else if str_eqb raw (lit "long") then Ret Longgammon
      else if str_eqb raw (lit "hyper") || str_eqb raw (lit "hypergammon3") then Ret Hypergammon
      else if str_eqb raw (lit "hyper2") then Ret Hypergammon2
      else if str_eqb raw (lit "hyper4") then Ret Hypergammon4
      else if str_eqb raw (lit "hyper5") then Ret Hypergammon5
      else Panic Unwrapped
  end.

(** What is printed (bkgm-perft.rs:38-46, 96-106, 124-134): the values, without the measured times. *)
Inductive report : Type :=
| Usage
| SingleRoll (v : variant) (id : str) (d0 d1 iterations total_moves : Z)
| PerftRun (v : variant) (id : str) (depth : Z) (weighted : bool) (iterations nodes : Z).

(** bkgm-perft.rs:75-107: [run_single_roll]. *)
Definition run_single_roll (m : mode) (N : Z) (p : position) (v : variant) (id : str) (d0 d1 iterations : Z) : res report :=
  if (1 <=? d0) && (d0 <=? 6) && ((1 <=? d1) && (d1 <=? 6)) then
    d <- dice_new m (Z.to_nat d0) (Z.to_nat d1) ;;
    total <- mfold (fun total (_ : nat) =>
               l <- classic_positions m N p d ;; u64 m (total + Z.of_nat (List.length l)))
             (range 0 (Z.to_nat iterations)) 0 ;;
    Ret (SingleRoll v id d0 d1 iterations total)
  else Panic AssertFail.

(** bkgm-perft.rs:109-135: [run_perft]. *)
Definition run_perft (m : mode) (N : Z) (p : position) (v : variant) (id : str) (depth : Z) (weighted : bool)
           (iterations : Z) : res report :=
  nodes <- mfold (fun _ (_ : nat) => perft m N p (Z.to_nat depth) weighted) (range 0 (Z.to_nat iterations)) 0 ;;
  Ret (PerftRun v id depth weighted iterations nodes).

(** [o.unwrap_or_else(..)], [o.or_else(..)] (bkgm-perft.rs:137-213). *)
Definition unwrap_or {A} (o : option A) (d : A) : A := match o with Some a => a | None => d end.
(** [o.or_else(..)] (bkgm-perft.rs:137-213). *)
Definition or_else {A} (o p : option A) : option A := match o with Some _ => o | None => p end.

(** bkgm-perft.rs:137-213: [main].  The five match arms differ only in the const parameter N of
    the position type, 15, 3, 2, 4, 5. *)
Definition perft_main (m : mode) (args : list str) : res report :=
  if has_flag args (lit "--help") || has_flag args (lit "-h") then Ret Usage
  else
    v <- parse_variant_flag args ;;
    id <- match find_flag (fun a => str_eqb a (lit "--position-id") || str_eqb a (lit "-p")) args with
          | Some id => Ret id
          | None => gnuid_encode m (start_position v)
          end ;;
    let depth := unwrap_or (or_else (parse_usize_flag args (lit "--depth")) (parse_usize_flag args (lit "-d"))) 2 in
    let iterations := Z.max (unwrap_or (or_else (parse_usize_flag args (lit "--iterations")) (parse_usize_flag args (lit "-n"))) 1) 1 in
    let weighted := has_flag args (lit "--weighted") || has_flag args (lit "-w") in
    let die0 := parse_usize_flag args (lit "--die0") in
    let die1 := parse_usize_flag args (lit "--die1") in
    let N := match v with
             | Backgammon | Nackgammon | Longgammon => 15
             | Hypergammon => 3 | Hypergammon2 => 2 | Hypergammon4 => 4 | Hypergammon5 => 5
             end in
    r <- gnuid_decode_position m N id ;;
    match r with
    | inl _ => Panic Unwrapped
    | inr p =>
        match die0, die1 with
        | Some d0, Some d1 => run_single_roll m N p v id d0 d1 iterations
        | _, _ => run_perft m N p v id depth weighted iterations
        end
    end.
