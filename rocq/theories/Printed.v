(** Model of what /repo/src/bin/bkgm-perft.rs and /repo/src/bin/corpus-bench.rs print.  The measured time is an
    arbitrary [Duration].  IEEE 754 binary64 with rounding to nearest even is taken from Flocq, as in Float32.v. *)
From Coq Require Import Strings.String.
From Flocq Require Import IEEE754.BinarySingleNaN.
From Verif Require Export Perft Corpus.
Open Scope Z_scope.

(** The type [f64] (language layer; bkgm-perft.rs:96). *)
Definition f64 : Type := binary_float 53 1024.
(** Side conditions of Flocq's operations. *)
Definition f64_prec : FLX.Prec_gt_0 53 := eq_refl.
Definition f64_emax : Prec_lt_emax 53 1024 := eq_refl.
(** [a * b] and [a / b] (bkgm-perft.rs:97, 124). *)
Definition f64_mul (a b : f64) : f64 := @Bmult 53 1024 f64_prec f64_emax mode_NE a b.
(** [a / b] (bkgm-perft.rs:97). *)
Definition f64_div (a b : f64) : f64 := @Bdiv 53 1024 f64_prec f64_emax mode_NE a b.
(** [a + b] (standard library, [as_secs_f64]; bkgm-perft.rs:96). *)
Definition f64_add (a b : f64) : f64 := @Bplus 53 1024 f64_prec f64_emax mode_NE a b.
(** [n as f64] for an unsigned integer (bkgm-perft.rs:97, 124). *)
Definition f64_of (n : Z) : f64 := binary_normalize 53 1024 f64_prec f64_emax mode_NE n 0 false.
(** The literal [1e-9] (bkgm-perft.rs:97): the nearest binary64 number, 2^-82 * 4835703278458517. *)
Definition f64_nano : f64 := binary_normalize 53 1024 f64_prec f64_emax mode_NE 4835703278458517 (-82) false.
(** [f64::max] (bkgm-perft.rs:97): the other operand if one is a NaN. *)
Definition f64_max (a b : f64) : f64 :=
  match Bcompare a b with
  | Some Lt => b
  | Some _ => a
  | None => if is_nan a then b else a
  end.

(** [std::time::Duration]: whole seconds ([u64]) and nanoseconds below 10^9 (bkgm-perft.rs:96). *)
Record duration : Type := { d_secs : Z; d_nanos : Z }.
(** [Duration::as_secs_f64] (standard library; bkgm-perft.rs:96). *)
Definition as_secs_f64 (d : duration) : f64 :=
  f64_add (f64_of (d_secs d)) (f64_div (f64_of (d_nanos d)) (f64_of 1000000000)).

(** The formats [{:.2}], [{:.3}], [{:.6}] (standard library: the exact value rounded to the given number of digits,
    ties to even; bkgm-perft.rs:102-107).  [round_pow2 n e] is [n * 2^e] rounded to an integer. *)
Definition round_pow2 (n e : Z) : Z :=
  if 0 <=? e then n * 2 ^ e
  else let d := 2 ^ (- e) in
       let q := n / d in let r := n mod d in
       if 2 * r <? d then q else if d <? 2 * r then q + 1 else if Z.even q then q else q + 1.
(** The last [k] decimal digits of [n] (standard library, cf. bkgm-perft.rs:102-107). *)
Fixpoint last_digits (k : nat) (n : Z) : str :=
  match k with O => [] | S k => last_digits k (n / 10) ++ [48 + n mod 10] end.
(** A number of [10^-k]-ths (standard library, cf. bkgm-perft.rs:102-107). *)
Definition fmt_fixed (k : nat) (n : Z) : str := fmt_uint (n / 10 ^ Z.of_nat k) ++ lit "." ++ last_digits k n.
(** [{:.k}] of an [f64], [k > 0] (standard library, cf. bkgm-perft.rs:102-107). *)
Definition fmt_f64 (k : nat) (x : f64) : str :=
  match x with
  | B754_nan => lit "NaN"
  | B754_infinity s => (if s then lit "-" else []) ++ lit "inf"
  | B754_zero s => (if s then lit "-" else []) ++ fmt_fixed k 0
  | B754_finite s mant e _ => (if s then lit "-" else []) ++ fmt_fixed k (round_pow2 (Zpos mant * 10 ^ Z.of_nat k) e)
  end.

(** The derived [Debug] of [Variant] (variants.rs:8). *)
Definition variant_debug (v : variant) : str :=
  match v with
  | Backgammon => lit "Backgammon"
  | Nackgammon => lit "Nackgammon"
  | Longgammon => lit "Longgammon"
  | Hypergammon => lit "Hypergammon"
  | Hypergammon2 => lit "Hypergammon2"
  | Hypergammon4 => lit "Hypergammon4"
  | Hypergammon5 => lit "Hypergammon5"
  end.

(** [println!] (bkgm-perft.rs:39). *)
Definition println (s : str) : str := s ++ [10].

(** bkgm-perft.rs:38-46: [usage]. *)
Definition usage : str :=
  println (lit "Usage: bkgm-perft [OPTIONS]") ++
  println (lit "  --position-id <ID>   GNUbg position ID (default: start)") ++
  println (lit "  --variant <NAME>     backgammon|nackgammon|longgammon|hypergammon|hypergammon2|hypergammon4|hypergammon5 (default: backgammon)") ++
  println (lit "  --depth <N>          Perft depth (default: 2)") ++
  println (lit "  --iterations <N>     Number of repeated runs (default: 1)") ++
  println (lit "  --weighted           Use 36-roll weighting") ++
  println (lit "  --die0 <N> --die1 <N>  Single-roll benchmark mode").

(** bkgm-perft.rs:96-109 and 123-136: what [run_single_roll] and [run_perft] print; [elapsed] is the time measured. *)
Definition perft_output (r : report) (elapsed : duration) : str :=
  let secs := as_secs_f64 elapsed in
  match r with
  | Usage => usage
  | SingleRoll v id d0 d1 iterations total_moves =>
      let it_per_sec := f64_div (f64_of iterations) (f64_max secs f64_nano) in
      println (lit "mode=single-roll variant=" ++ variant_debug v ++ lit " position_id=" ++ id ++ lit " dice=" ++ fmt_uint d0
               ++ lit "," ++ fmt_uint d1 ++ lit " iterations=" ++ fmt_uint iterations) ++
      println (lit "total_moves=" ++ fmt_uint total_moves ++ lit " avg_moves="
               ++ fmt_f64 3 (f64_div (f64_of total_moves) (f64_of iterations))) ++
      println (lit "time_s=" ++ fmt_f64 6 secs ++ lit " it_per_sec=" ++ fmt_f64 2 it_per_sec)
  | PerftRun v id depth weighted iterations nodes =>
      let nps := f64_div (f64_mul (f64_of nodes) (f64_of iterations)) (f64_max secs f64_nano) in
      println (lit "mode=perft variant=" ++ variant_debug v ++ lit " position_id=" ++ id ++ lit " depth=" ++ fmt_uint depth
               ++ lit " weighted=" ++ fmt_uint (if weighted then 1 else 0) ++ lit " iterations=" ++ fmt_uint iterations) ++
      println (lit "nodes_per_run=" ++ fmt_uint nodes) ++
      println (lit "time_s=" ++ fmt_f64 6 secs ++ lit " nodes_per_sec=" ++ fmt_f64 2 nps)
  end.

(** bkgm-perft.rs:137-213: the whole program. *)
Definition perft_program (m : Base.mode) (args : list str) (elapsed : duration) : res str :=
  r <- perft_main m args ;; Ret (perft_output r elapsed).

(** corpus-bench.rs:47-56: what [bench] prints. *)
Definition bench_output (b : bench_report) (elapsed : duration) : str :=
  let secs := as_secs_f64 elapsed in
  let it_per_sec := f64_div (f64_of (b_iterations b)) (f64_max secs f64_nano) in
  let moves_per_sec := f64_div (f64_mul (f64_of (b_moves_per_run b)) (f64_of (b_iterations b))) (f64_max secs f64_nano) in
  println (b_name b) ++
  println (lit "positions=" ++ fmt_uint (Z.of_nat (b_positions b)) ++ lit " iterations=" ++ fmt_uint (b_iterations b)) ++
  println (lit "moves_per_run=" ++ fmt_uint (b_moves_per_run b)) ++
  println (lit "time_s=" ++ fmt_f64 6 secs) ++
  println (lit "iters_per_sec=" ++ fmt_f64 2 it_per_sec) ++
  println (lit "moves_per_sec=" ++ fmt_f64 2 moves_per_sec).
(** corpus-bench.rs:59-76: the whole program; [s1], [s2] are the two times measured.
    (If the second corpus makes the program panic, the first report has been printed already: not modelled.) *)
Definition corpus_program (m : Base.mode) (files : str -> option str) (contact race : str) (args : list str) (s1 s2 : duration) : res str :=
  '(b1, b2) <- corpus_main m files contact race args ;; Ret (bench_output b1 s1 ++ bench_output b2 s2).
