(** Model of the rest of /repo/src/bin/corpus-bench.rs: loading the corpora and the command line
    ([run_once] is in Perft.v, the printed lines are in Printed.v).  Not modelled: the clock. *)
From Coq Require Import Strings.String.
From Verif Require Export Perft.
Open Scope Z_scope.

(** [str::lines] (standard library, called in corpus-bench.rs:16): the pieces of [split_inclusive('\n')], each without its "\n" and then
    without a "\r" before it; a last piece without "\n" is kept as it is. *)
Fixpoint split_inclusive (c : Z) (s : str) : list str :=
  match s with
  | [] => []
  | x :: s' =>
      if x =? c then [x] :: split_inclusive c s'
      else match split_inclusive c s' with
           | [] => [[x]]
           | l :: ls => (x :: l) :: ls
           end
  end.
(** [strip_suffix(c)], used by [str::lines] (corpus-bench.rs:16). *)
Definition strip_last (c : Z) (s : str) : option str :=
  match rev s with x :: r => if x =? c then Some (rev r) else None | [] => None end.
(** A piece without its line end (corpus-bench.rs:16). *)
Definition line_of_piece (l : str) : str :=
  match strip_last 10 l with
  | None => l
  | Some l => match strip_last 13 l with None => l | Some l => l end
  end.
(** [str::lines] (corpus-bench.rs:16). *)
Definition str_lines (s : str) : list str := map line_of_piece (split_inclusive 10 s).

(** corpus-bench.rs:13-20: [load_positions].  [files] is the file system: [None] is a read error. *)
Definition load_positions (m : mode) (files : str -> option str) (path : str) : res (list position) :=
  match files path with
  | None => Panic Unwrapped
  | Some text =>
      mmap (fun id =>
        r <- gnuid_decode_position m 15 id ;;
        match r with inr p => Ret p | inl _ => Panic Unwrapped end)
      (filter (fun l => nonempty (trim l)) (str_lines text))
  end.

(** What [bench] prints about one corpus (corpus-bench.rs:49-56), without the measured times. *)
Record bench_report : Type := { b_name : str; b_positions : nat; b_iterations : Z; b_moves_per_run : Z }.

(** corpus-bench.rs:42-57: [bench]. *)
Definition bench (m : mode) (name : str) (positions : list position) (iterations : Z) : res bench_report :=
  total <- mfold (fun _ (_ : nat) => run_once m positions) (range 0 (Z.to_nat iterations)) 0 ;;
  Ret {| b_name := name; b_positions := List.length positions; b_iterations := iterations; b_moves_per_run := total |}.

(** corpus-bench.rs:22-24: [parse_string_flag] ([parse_usize_flag], 26-30, is the one of bkgm-perft). *)
Definition parse_string_flag (args : list str) (name : str) : option str := find_flag (fun a => str_eqb a name) args.

(** corpus-bench.rs:59-76: [main]; [contact] and [race] are the default paths (benches/resources/contact.csv
    and race.csv in the crate). *)
Definition corpus_main (m : mode) (files : str -> option str) (contact race : str) (args : list str)
  : res (bench_report * bench_report) :=
  let contact_path := unwrap_or (parse_string_flag args (lit "--contact-csv")) contact in
  let race_path := unwrap_or (parse_string_flag args (lit "--race-csv")) race in
  let iterations := Z.max (unwrap_or (parse_usize_flag args (lit "--iterations")) 20) 1 in
  c <- load_positions m files contact_path ;;
  r <- load_positions m files race_path ;;
  b1 <- bench m (lit "corpus/contact/all21") c iterations ;;
  b2 <- bench m (lit "corpus/race/all21") r iterations ;;
  Ret (b1, b2).
