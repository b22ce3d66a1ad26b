(** Model of /repo/benches/movegen_bench.rs: the sampling and counting it measures.  Not modelled: criterion,
    timing and what is printed. *)
From Verif Require Export Perft.
Open Scope Z_scope.

(** movegen_bench.rs:11: [SAMPLE_POSITIONS]. *)
Definition SAMPLE_POSITIONS : nat := 512.

(** movegen_bench.rs:13-21: [count_all21_moves]. *)
Definition count_all21_moves (m : mode) (positions : list position) : res Z :=
  mfold (fun total pos =>
    rolls <- all_21 m ;;
    mfold (fun total '(dice_, _) =>
      legal <- classic_positions m 15 pos dice_ ;; u64 m (total + Z.of_nat (List.length legal))) rolls total)
  positions 0.

(** Derived [PartialEq] of [OngoingPhase] (position.rs:72), used in movegen_bench.rs:39. *)
Definition ongoing_phase_eqb (a b : ongoing_phase) : bool :=
  match a, b with Contact, Contact | Race, Race => true | _, _ => false end.

(** movegen_bench.rs:28-44: the [for _ply in 0..80] loop; [plies] is the number of remaining iterations, [draw]
    is [rng.usize(0..n)] of an arbitrary generator.  Returns the position pushed, if any. *)
Fixpoint sample_loop {R} (m : mode) (draw : R -> nat -> nat * R) (target : ongoing_phase)
    (plies : nat) (p : position) (rng : R) : res (option position * R) :=
  match plies with
  | O => Ret (None, rng)
  | S plies' =>
      rolls <- all_21 m ;;
      let '(i, rng) := draw rng (List.length rolls) in
      '(dice_, _) <- index rolls i ;;
      scratch <- classic_positions m 15 p dice_ ;;
      match scratch with
      | [] => Ret (None, rng)
      | _ :: _ =>
          let '(j, rng) := draw rng (List.length scratch) in
          p <- index scratch j ;;
          ph <- phase m 15 p ;;
          match ph with
          | POngoing current =>
              if ongoing_phase_eqb current target then Ret (Some p, rng)
              else sample_loop m draw target plies' p rng
          | PGameOver _ => sample_loop m draw target plies' p rng
          end
      end
  end.

(** movegen_bench.rs:27-45: the [while out.len() < count] loop.  It has no bound: [fuel] bounds its iterations
    and [None] means that it has not finished within the fuel. *)
Fixpoint collect_loop {R} (m : mode) (draw : R -> nat -> nat * R) (target : ongoing_phase) (count : nat)
    (fuel : nat) (out : list position) (rng : R) : res (option (list position)) :=
  if (List.length out <? count)%nat then
    match fuel with
    | O => Ret None
    | S fuel =>
        '(q, rng) <- sample_loop m draw target 80 BACKGAMMON rng ;;
        collect_loop m draw target count fuel (match q with Some q => out ++ [q] | None => out end) rng
    end
  else Ret (Some out).

(** movegen_bench.rs:23-48: [collect_phase_positions]; [seeded] is the generator [with_seed(seed)]. *)
Definition collect_phase_positions {R} (m : mode) (draw : R -> nat -> nat * R) (target : ongoing_phase)
    (count : nat) (seeded : R) (fuel : nat) : res (option (list position)) :=
  collect_loop m draw target count fuel [] seeded.
