(** Independent specification of dice rolls. *)
From Verif Require Export SpecRules.
Open Scope nat_scope.

(** Throwing [a] with the first die and [b] with the second shows the roll [d]. *)
Definition shows (d : dice) (a b : nat) : bool :=
  match d with
  | Double x => (a =? x) && (b =? x)
  | Mixed big small =>
      (small <? big) && (((a =? big) && (b =? small)) || ((a =? small) && (b =? big)))
  end.

(** The 36 ordered throws of two dice, and how many of them show [d]. *)
Definition throws : list (nat * nat) := list_prod (seq 1 6) (seq 1 6).
Definition multiplicity (d : dice) : nat :=
  length (filter (fun t => shows d (fst t) (snd t)) throws).

Definition is_mixed (d : dice) : bool := match d with Mixed _ _ => true | Double _ => false end.

Definition dice_eqb (a b : dice) : bool :=
  match a, b with
  | Mixed x y, Mixed z w => (x =? z) && (y =? w)
  | Double x, Double z => x =? z
  | _, _ => false
  end.

(** Serving calls from a prepared list of dice: a plain roll takes the next one, a mixed roll throws away
    doubles until it finds a mixed one, a choice between weighted outcomes takes the first and no dice;
    [None] when the list runs out. *)
Inductive mock_call (F : Type) : Type := CRoll | CMixed | CIndex (chances : list F).
Inductive mock_answer : Type := ADice (d : dice) | AIndex (i : Z).
Arguments CRoll {F}. Arguments CMixed {F}. Arguments CIndex {F}.
Fixpoint next_mixed (l : list dice) : option (dice * list dice) :=
  match l with
  | [] => None
  | d :: l' => if is_mixed d then Some (d, l') else next_mixed l'
  end.
Definition serve1 {F} (c : mock_call F) (l : list dice) : option (mock_answer * list dice) :=
  match c with
  | CRoll => match l with [] => None | d :: l' => Some (ADice d, l') end
  | CMixed => match next_mixed l with None => None | Some (d, l') => Some (ADice d, l') end
  | CIndex _ => Some (AIndex 0, l)
  end.
Fixpoint serve {F} (calls : list (mock_call F)) (l : list dice) : option (list mock_answer * list dice) :=
  match calls with
  | [] => Some ([], l)
  | c :: calls' =>
      match serve1 c l with
      | None => None
      | Some (a, l') => match serve calls' l' with
                        | None => None
                        | Some (outs, rest) => Some (a :: outs, rest)
                        end
      end
  end.
