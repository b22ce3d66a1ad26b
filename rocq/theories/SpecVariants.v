(** Independent specification for variants: how many checkers a variant has, and what a
    well-formed position of a variant is. *)
From Coq Require Import Strings.String.
From Verif Require Export SpecRules Variants.
Open Scope Z_scope.

(** Checkers per side. *)
Definition checkers (v : variant) : Z :=
  match v with
  | Backgammon | Nackgammon | Longgammon => 15
  | Hypergammon => 3
  | Hypergammon2 => 2
  | Hypergammon4 => 4
  | Hypergammon5 => 5
  end.

(** The board inside a variant position, and the variant it is tagged with. *)
Definition board_of (v : vpos) : position :=
  match v with
  | VBackgammon p | VNackgammon p | VLonggammon p | VHypergammon p | VHypergammon2 p
  | VHypergammon4 p | VHypergammon5 p => p
  end.
Definition tag (k : variant) (p : position) : vpos :=
  match k with
  | Backgammon => VBackgammon p
  | Nackgammon => VNackgammon p
  | Longgammon => VLonggammon p
  | Hypergammon => VHypergammon p
  | Hypergammon2 => VHypergammon2 p
  | Hypergammon4 => VHypergammon4 p
  | Hypergammon5 => VHypergammon5 p
  end.

(** [v] is a well-formed position of variant [k]. *)
Definition vwf (k : variant) (v : vpos) : Prop :=
  exists p, v = tag k p /\ wf (checkers k) p.

(** Nobody has borne off everything. *)
Definition vongoing (v : vpos) : Prop :=
  exists k p, v = tag k p /\ ongoing (checkers k) p.

(** The legal plays of a roll, from and to variant positions. *)
Definition vlegal (d : dice) (v w : vpos) : Prop :=
  exists k p q r, v = tag k p /\ w = tag k q /\ legal_result d p r /\ mirrored r q.

(** What a variant is called on the wire, and its title. *)
Definition wire_name (k : variant) : string :=
  match k with
  | Backgammon => "backgammon" | Nackgammon => "nackgammon" | Longgammon => "longgammon"
  | Hypergammon => "hypergammon" | Hypergammon2 => "hypergammon2"
  | Hypergammon4 => "hypergammon4" | Hypergammon5 => "hypergammon5"
  end.
Definition title (k : variant) : string :=
  match k with
  | Backgammon => "Backgammon" | Nackgammon => "Nackgammon" | Longgammon => "Longgammon"
  | Hypergammon => "Hypergammon (3)" | Hypergammon2 => "Hypergammon (2)"
  | Hypergammon4 => "Hypergammon (4)" | Hypergammon5 => "Hypergammon (5)"
  end.

(** Where each side starts, counting points from its own side: pairs (point, checkers).  Backgammon
    is the usual set-up; nackgammon takes a checker from the 13 and the 6 points for two on the
    23 point; longgammon starts with everything on the 24 point; hypergammon with [n] checkers has
    one on each of the last [n] points. *)
Definition setup (k : variant) : list (nat * Z) :=
  match k with
  | Backgammon => [(24%nat, 2); (13%nat, 5); (8%nat, 3); (6%nat, 5)]
  | Nackgammon => [(24%nat, 2); (23%nat, 2); (13%nat, 4); (8%nat, 3); (6%nat, 4)]
  | Longgammon => [(24%nat, 15)]
  | Hypergammon2 => [(24%nat, 1); (23%nat, 1)]
  | Hypergammon => [(24%nat, 1); (23%nat, 1); (22%nat, 1)]
  | Hypergammon4 => [(24%nat, 1); (23%nat, 1); (22%nat, 1); (21%nat, 1)]
  | Hypergammon5 => [(24%nat, 1); (23%nat, 1); (22%nat, 1); (21%nat, 1); (20%nat, 1)]
  end.
Definition stands (l : list (nat * Z)) (i : nat) : Z :=
  sumZ (map (fun e => if Nat.eqb (fst e) i then snd e else 0) l).
