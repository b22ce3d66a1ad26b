(** Independent specification of the corpus benchmark's input. *)
From Coq Require Import Strings.String.
From Verif Require Export SpecPerft Corpus.
Open Scope Z_scope.

(** The lines of a text file, ended by LF (10) or CR LF (13 10); the last one need not be ended. *)
Inductive file_lines : str -> list str -> Prop :=
| file_empty : file_lines [] []
| file_last l : l <> [] -> ~ In 10 l -> file_lines l [l]
| file_lf l t ls : ~ In 10 l -> (forall l', l <> l' ++ [13]) -> file_lines t ls -> file_lines (l ++ [10] ++ t) (l :: ls)
| file_crlf l t ls : ~ In 10 l -> file_lines t ls -> file_lines (l ++ [13; 10] ++ t) (l :: ls).

(** The lines that are not blank, in order. *)
Inductive nonblank_lines : list str -> list str -> Prop :=
| nonblank_nil : nonblank_lines [] []
| nonblank_skip l ls ids : only_blanks l -> nonblank_lines ls ids -> nonblank_lines (l :: ls) ids
| nonblank_keep l ls ids : ~ only_blanks l -> nonblank_lines ls ids -> nonblank_lines (l :: ls) (l :: ids).

(** The positions of a corpus file: one position ID of the 15-checker game per line that is not blank. *)
Definition corpus (m : mode) (files : str -> option str) (path : str) (ps : list position) : Prop :=
  exists text ls ids, files path = Some text /\ file_lines text ls /\ nonblank_lines ls ids /\
  Forall2 (fun id p => gnuid_decode_position m 15 id = Ret (inr p)) ids ps.

(** A path given by a flag, or the default. *)
Definition path_chosen (args : list str) (flag default path : str) : Prop :=
  flag_value [flag] args path \/ (no_flag [flag] args /\ path = default).

Definition corpus_reports (m : mode) (files : str -> option str) (contact race : str) (args : list str)
  (a b : bench_report) : Prop :=
  exists cp rp cs rs iterations ct rt,
  path_chosen args (lit "--contact-csv") contact cp /\ path_chosen args (lit "--race-csv") race rp /\
  (number_flag args (lit "--iterations") iterations \/ (no_number args (lit "--iterations") /\ iterations = 20)) /\
  corpus m files cp cs /\ corpus m files rp rs /\
  run_once m cs = Ret ct /\ run_once m rs = Ret rt /\
  a = {| b_name := lit "corpus/contact/all21"; b_positions := List.length cs; b_iterations := Z.max iterations 1; b_moves_per_run := ct |} /\
  b = {| b_name := lit "corpus/race/all21"; b_positions := List.length rs; b_iterations := Z.max iterations 1; b_moves_per_run := rt |}.
