(** Independent specification for property C78: what a program can ask of [FastrandDice], and how many
    of the equally likely sequences of draws give an answer. *)
From Verif Require Export SpecDice DiceSource.
Open Scope nat_scope.

(** A random number generator whose draws are in range. *)
Definition rng_ok {S} (R : rng S) : Prop :=
  (forall n s, 0 < n -> fst (rng_below R n s) < n) /\ (forall s, (0 <= fst (rng_u64 R s) < 2 ^ 64)%Z).

(** The calls, and what may be answered. *)
Inductive request : Type := AskRoll | AskMixed | AskIndex (chances : list f32) | AskSeed.
Inductive reply : Type := Rolled (d : dice) | Chosen (i : Z) | Seeded (z : Z).
Definition fits (q : request) (a : reply) : Prop :=
  match q, a with
  | AskRoll, Rolled d => valid_dice d
  | AskMixed, Rolled d => valid_dice d /\ is_mixed d = true
  | AskIndex l, Chosen i => (0 <= i < Z.of_nat (length l))%Z
  | AskSeed, Seeded z => (0 <= z < 2 ^ 64)%Z
  | _, _ => False
  end.
Definition askable (q : request) : Prop :=
  match q with AskIndex l => l <> [] /\ (Z.of_nat (length l) < 2 ^ 64)%Z | _ => True end.

(** Making the calls one after the other. *)
Definition ask {S} (m : mode) (minus : bool) (R : rng S) (q : request) (s : S) : res (reply * S) :=
  match q with
  | AskRoll => '(d, s) <- fr_roll m R s ;; Ret (Rolled d, s)
  | AskMixed => '(d, s) <- fr_roll_mixed m R s ;; Ret (Rolled d, s)
  | AskIndex l => '(i, s) <- fr_choose_index m minus R l s ;; Ret (Chosen i, s)
  | AskSeed => let '(z, s) := fr_seed R s in Ret (Seeded z, s)
  end.
Fixpoint ask_all {S} (m : mode) (minus : bool) (R : rng S) (qs : list request) (s : S) : res (list reply * S) :=
  match qs with
  | [] => Ret ([], s)
  | q :: qs' => '(a, s) <- ask m minus R q s ;;
                '(l, s) <- ask_all m minus R qs' s ;; Ret (a :: l, s)
  end.

(** The generator's state after the draws: one per call. *)
Definition one_draw {S} (R : rng S) (q : request) (s : S) : S :=
  match q with
  | AskRoll => snd (rng_below R 36 s)
  | AskMixed => snd (rng_below R 30 s)
  | AskIndex _ => snd (rng_below R (Z.to_nat 1000000) s)
  | AskSeed => snd (rng_u64 R s)
  end.

(** Rolls only ([true] is an opening roll, without doubles).  All sequences of draws for them; a generator
    that takes its draws from such a sequence; and how many throws of two dice show given rolls. *)
Definition bound (mixed : bool) : nat := if mixed then 30 else 36.
Fixpoint draws (calls : list bool) : list (list nat) :=
  match calls with
  | [] => [[]]
  | c :: cs => flat_map (fun x => map (cons x) (draws cs)) (seq 0 (bound c))
  end.
Definition tape : rng (list nat) :=
  {| rng_with_seed := fun _ => [];
     rng_below := fun _ t => (hd 0 t, tl t);
     rng_u64 := fun t => (0%Z, t) |}.
Definition request_of (mixed : bool) : request := if mixed then AskMixed else AskRoll.
Definition answers_with (m : mode) (calls : list bool) (t : list nat) (ds : list dice) : Prop :=
  ask_all m false tape (map request_of calls) t = Ret (map Rolled ds, []).
(** Throws of two dice showing [d]: of the 36, or of the 30 that are not doubles. *)
Definition ways (mixed : bool) (d : dice) : nat :=
  if mixed then (if is_mixed d then multiplicity d else 0) else multiplicity d.
Fixpoint all_ways (calls : list bool) (ds : list dice) : nat :=
  match calls, ds with
  | [], [] => 1
  | c :: cs, d :: ds' => ways c d * all_ways cs ds'
  | _, _ => 0
  end.
Fixpoint all_draws (calls : list bool) : nat :=
  match calls with [] => 1 | c :: cs => bound c * all_draws cs end.
