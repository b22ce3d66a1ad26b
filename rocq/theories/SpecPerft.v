(** Independent specification of perft: counting lines of play. *)
From Coq Require Import Strings.String.
From Verif Require Export SpecDice SpecText SpecVariants Perft.
Open Scope Z_scope.

(** A line of play: at each turn something is rolled and one of the positions listed by
    [legal_positions] is chosen, identified by its number in the list.  [roll t d] says that [t] rolls
    the dice [d]. *)
Inductive line {T} (roll : T -> dice -> Prop) (m : mode) (N : Z) : position -> list (T * nat) -> position -> Prop :=
| line_end p : line roll m N p [] p
| line_turn p t d l i q rest r : roll t d -> classic_positions m N p d = Ret l -> nth_error l i = Some q ->
    line roll m N q rest r -> line roll m N p ((t, i) :: rest) r.

(** Unweighted: one of the 21 rolls.  Weighted: one of the 36 throws of two dice. *)
Definition by_roll (t d : dice) : Prop := t = d /\ valid_dice d.
Definition by_throw (t : nat * nat) (d : dice) : Prop :=
  valid_die (fst t) /\ valid_die (snd t) /\ shows d (fst t) (snd t) = true.

(** There are exactly [n] objects with property [P]. *)
Definition number_of {A} (P : A -> Prop) (n : nat) : Prop :=
  exists L, NoDup L /\ (forall a, In a L <-> P a) /\ List.length L = n.

(** The number of lines of [depth] turns from [p]. *)
Definition lines_of (m : mode) (N : Z) (p : position) (depth : nat) (weighted : bool) (n : nat) : Prop :=
  if weighted then number_of (fun s => List.length s = depth /\ exists r, line by_throw m N p s r) n
  else number_of (fun s => List.length s = depth /\ exists r, line by_roll m N p s r) n.

(** No game is over before the last turn: every position reached in fewer than [depth] turns is ongoing. *)
Definition never_over (m : mode) (N : Z) (p : position) (depth : nat) : Prop :=
  forall s q, line by_roll m N p s q -> (List.length s < depth)%nat -> ongoing N q.

(** ** The command line *)

(** The argument after the first of the given flags that has one. *)
Definition flag_value (names : list str) (args : list str) (v : str) : Prop :=
  exists a n b, args = a ++ n :: v :: b /\ In n names /\ Forall (fun x => ~ In x names) a.
Definition no_flag (names : list str) (args : list str) : Prop := forall v, ~ flag_value names args v.

(** A flag whose argument is a number (a usize). *)
Definition number_flag (args : list str) (name : str) (v : Z) : Prop :=
  exists t, flag_value [name] args t /\ unsigned_text (2 ^ 64 - 1) t v.
Definition no_number (args : list str) (name : str) : Prop := forall v, ~ number_flag args name v.
(** A number from its long flag, else from its short flag, else a default. *)
Definition setting (args : list str) (long short : str) (default v : Z) : Prop :=
  number_flag args long v \/ (no_number args long /\ number_flag args short v) \/
  (no_number args long /\ no_number args short /\ v = default).

(** Variants are named as usual (any case, blanks around) or by a short name (any case). *)
Definition short_names : list (str * variant) :=
  [(lit "bg", Backgammon); (lit "nack", Nackgammon); (lit "long", Longgammon); (lit "hyper", Hypergammon);
   (lit "hypergammon3", Hypergammon); (lit "hyper2", Hypergammon2); (lit "hyper4", Hypergammon4); (lit "hyper5", Hypergammon5)].
Definition variant_named (t : str) (k : variant) : Prop :=
  spells t (variant_display k) \/ exists s, In (s, k) short_names /\ same_text t s.
Definition variant_chosen (args : list str) (k : variant) : Prop :=
  (exists t, flag_value [lit "--variant"; lit "-v"] args t /\ variant_named t k) \/
  (no_flag [lit "--variant"; lit "-v"] args /\ k = Backgammon).
(** The position: the ID given, or the variant's start. *)
Definition id_chosen (m : mode) (args : list str) (k : variant) (id : str) : Prop :=
  flag_value [lit "--position-id"; lit "-p"] args id \/
  (no_flag [lit "--position-id"; lit "-p"] args /\ gnuid_encode m (start_position k) = Ret id).

(** A 64-bit total: exact, or (release builds) the exact total modulo 2^64. *)
Definition total_is (m : mode) (exact t : Z) : Prop :=
  match m with Debug => t = exact /\ exact < 2 ^ 64 | Release => t = exact mod 2 ^ 64 end.

(** What the program reports. *)
Definition reports (m : mode) (args : list str) (r : report) : Prop :=
  exists k id p iterations,
  variant_chosen args k /\ id_chosen m args k id /\
  gnuid_decode_position m (checkers k) id = Ret (inr p) /\
  setting args (lit "--iterations") (lit "-n") 1 iterations /\
  ((exists d0 d1 d l total, number_flag args (lit "--die0") d0 /\ number_flag args (lit "--die1") d1 /\
      1 <= d0 <= 6 /\ 1 <= d1 <= 6 /\ shows d (Z.to_nat d0) (Z.to_nat d1) = true /\
      classic_positions m (checkers k) p d = Ret l /\
      total_is m (Z.max iterations 1 * Z.of_nat (List.length l)) total /\
      r = SingleRoll k id d0 d1 (Z.max iterations 1) total) \/
   ((no_number args (lit "--die0") \/ no_number args (lit "--die1")) /\
    exists depth weighted nodes, setting args (lit "--depth") (lit "-d") 2 depth /\
      (weighted = true <-> In (lit "--weighted") args \/ In (lit "-w") args) /\
      perft m (checkers k) p (Z.to_nat depth) weighted = Ret nodes /\
      r = PerftRun k id depth weighted (Z.max iterations 1) nodes)).
