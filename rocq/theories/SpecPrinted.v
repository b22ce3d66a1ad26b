(** Independent specification of the lines printed by bkgm-perft and corpus-bench. *)
From Coq Require Import Strings.String Reals.
From Verif Require Export SpecWritten SpecPerft SpecCorpus Printed.
Open Scope Z_scope.

(** A time span: whole seconds (64 bits) and less than 10^9 nanoseconds; its length in seconds. *)
Definition time_span (d : duration) : Prop := 0 <= d_secs d < 2 ^ 64 /\ 0 <= d_nanos d < 10 ^ 9.
Definition seconds (d : duration) : R := (IZR (d_secs d) + IZR (d_nanos d) / 10 ^ 9)%R.
(** Rates are computed as if at least a nanosecond had passed. *)
Definition seconds_counted (d : duration) : R := Rmax (seconds d) (/ 10 ^ 9).

(** A number of 10^-k written with k digits after the point. *)
Definition fixed (k : nat) (s : str) (n : Z) : Prop :=
  exists i f, s = i ++ lit "." ++ f /\ List.length f = k /\
  decimal i (n / 10 ^ Z.of_nat k) /\ numeral f (n mod 10 ^ Z.of_nat k).
(** A nonnegative real number written with k digits after the point: the last digit is correctly rounded up to a
    relative error of 2^-48 (less than 4 / 10^15). *)
Definition rounded (k : nat) (s : str) (x : R) : Prop :=
  exists n, 0 <= n /\ fixed k s n /\ (Rabs (IZR n - x * 10 ^ k) <= / 2 + x * 10 ^ k * / 2 ^ 48)%R.

(** Lines of fields "name=value" separated by single spaces. *)
Definition field (name value : str) : str := name ++ lit "=" ++ value.
Definition text_of (ls : list (list str)) : str := concat (map (fun ws => join (lit " ") ws ++ [10]) ls).
(** The name of a variant with a capital letter. *)
Definition capital (s : str) : str := match s with c :: r => c - 32 :: r | [] => [] end.

Definition perft_text (r : report) (d : duration) (t : str) : Prop :=
  match r with
  | Usage => False
  | SingleRoll k id d0 d1 iterations total =>
      exists a b n tm avg time rate,
      t = text_of [[field (lit "mode") (lit "single-roll"); field (lit "variant") (capital (variant_display k));
                    field (lit "position_id") id; field (lit "dice") (a ++ lit "," ++ b); field (lit "iterations") n];
                   [field (lit "total_moves") tm; field (lit "avg_moves") avg];
                   [field (lit "time_s") time; field (lit "it_per_sec") rate]] /\
      decimal a d0 /\ decimal b d1 /\ decimal n iterations /\ decimal tm total /\
      rounded 3 avg (IZR total / IZR iterations) /\ rounded 6 time (seconds d) /\
      rounded 2 rate (IZR iterations / seconds_counted d)
  | PerftRun k id depth weighted iterations nodes =>
      exists de n no time rate,
      t = text_of [[field (lit "mode") (lit "perft"); field (lit "variant") (capital (variant_display k));
                    field (lit "position_id") id; field (lit "depth") de;
                    field (lit "weighted") (if weighted then lit "1" else lit "0"); field (lit "iterations") n];
                   [field (lit "nodes_per_run") no];
                   [field (lit "time_s") time; field (lit "nodes_per_sec") rate]] /\
      decimal de depth /\ decimal n iterations /\ decimal no nodes /\
      rounded 6 time (seconds d) /\ rounded 2 rate (IZR nodes * IZR iterations / seconds_counted d)
  end.

Definition bench_text (b : bench_report) (d : duration) (t : str) : Prop :=
  exists ps n mv time rate moves,
  t = text_of [[b_name b]; [field (lit "positions") ps; field (lit "iterations") n]; [field (lit "moves_per_run") mv];
               [field (lit "time_s") time]; [field (lit "iters_per_sec") rate]; [field (lit "moves_per_sec") moves]] /\
  decimal ps (Z.of_nat (b_positions b)) /\ decimal n (b_iterations b) /\ decimal mv (b_moves_per_run b) /\
  rounded 6 time (seconds d) /\ rounded 2 rate (IZR (b_iterations b) / seconds_counted d) /\
  rounded 2 moves (IZR (b_moves_per_run b) * IZR (b_iterations b) / seconds_counted d).

(** The command line that repeats a run. *)
Definition repeat_args (r : report) (args : list str) : Prop :=
  match r with
  | Usage => False
  | SingleRoll k id d0 d1 iterations _ => exists a b n, decimal a d0 /\ decimal b d1 /\ decimal n iterations /\
      args = [lit "bkgm-perft"; lit "--variant"; capital (variant_display k); lit "--position-id"; id; lit "--die0"; a; lit "--die1"; b;
              lit "--iterations"; n]
  | PerftRun k id depth weighted iterations _ => exists de n, decimal de depth /\ decimal n iterations /\
      args = [lit "bkgm-perft"; lit "--variant"; capital (variant_display k); lit "--position-id"; id; lit "--depth"; de;
              lit "--iterations"; n] ++ (if weighted then [lit "--weighted"] else [])
  end.

(** The usage text, line by line; the defaults it names are those of [no_settings] below. *)
Definition usage_lines : list str :=
  [lit "Usage: bkgm-perft [OPTIONS]";
   lit "  --position-id <ID>   GNUbg position ID (default: start)";
   lit "  --variant <NAME>     " ++ join (lit "|") (map variant_display [Backgammon; Nackgammon; Longgammon; Hypergammon; Hypergammon2; Hypergammon4; Hypergammon5])
     ++ lit " (default: backgammon)";
   lit "  --depth <N>          Perft depth (default: 2)";
   lit "  --iterations <N>     Number of repeated runs (default: 1)";
   lit "  --weighted           Use 36-roll weighting";
   lit "  --die0 <N> --die1 <N>  Single-roll benchmark mode"].
(** A command line without any of the flags. *)
Definition no_settings (args : list str) : Prop :=
  Forall (fun a => ~ In a [lit "--help"; lit "-h"; lit "--position-id"; lit "-p"; lit "--variant"; lit "-v"; lit "--depth"; lit "-d";
                           lit "--iterations"; lit "-n"; lit "--weighted"; lit "-w"; lit "--die0"; lit "--die1"]) args.
