(** Independent specification for C93: which lines of a command stream leave no trace. *)
From Coq Require Import Strings.String.
From Verif Require Export SpecUbgi.
Unset Implicit Arguments.
Open Scope Z_scope.

(** The log of a session without its [n]th entry (counting from 0), and with its [n]th and the next entry exchanged. *)
Definition drop_nth {A} (n : nat) (l : list A) : list A := firstn n l ++ skipn (S n) l.
Definition swap_nth {A} (n : nat) (l : list A) : list A :=
  match skipn n l with
  | x :: y :: rest => firstn n l ++ y :: x :: rest
  | _ => l
  end.

(** Lines that only ask the session something, or nothing at all: blanks, [ubgi], [keys], [get], the two unsupported
    forms of [go], the unsupported forms of [position], and lines that are not commands. *)
Definition only_asks (line : str) : Prop :=
  only_blanks line \/ is_line (lit "ubgi") line \/ is_line (lit "keys") line \/ (exists key, get_line line key) \/
  is_line (lit "go cube") line \/ is_line (lit "go turn") line \/
  (position_line line /\ forall id, ~ gnubgid_line line id) \/ ~ known_line line.
(** Lines refused without asking the engine: a [dice], [position] or [set game.variant] line answered with an error, or a
    [set] line that lacks a key or a value or gives no value a declared option takes. *)
Definition turned_down (os : list option_spec) (line : str) (out : list str) : Prop :=
  (out <> [] /\ ((exists r, dice_line line r) \/ position_line line \/ (exists t, set_line line (lit "game.variant") t))) \/
  (exists key t, set_line line key t /\
     (key = [] \/ t = [] \/ (key <> lit "game.variant" /\ forall o v, declared os key o -> ~ denotes o t v))).

(** Lines that give dice, or take them away. *)
Definition gives_dice (line : str) : Prop := exists r a b, dice_line line r /\ two_dice r a b.
Definition replaces_dice (line : str) : Prop := gives_dice line \/ is_line (lit "newgame") line.
(** Lines that set up a position: [newgame], [position gnubgid], [set game.variant]. *)
Definition gives_position (line : str) : Prop := exists id, gnubgid_line line id.
Definition replaces_position (line : str) : Prop :=
  gives_position line \/ is_line (lit "newgame") line \/ exists t, set_line line (lit "game.variant") t.
(** Lines between which nothing is decided. *)
Definition idle (line : str) : Prop := ~ go_line line /\ ~ is_line (lit "quit") line.
