(** Model of /repo/src/rules.rs. *)
From Verif Require Export Variants MoveGen.
Open Scope Z_scope.

(** rules.rs:30-34: [ClassicRules] on positions. *)
Definition classic_positions (m : mode) (N : Z) (p : position) (d : dice) : res (list position) :=
  generate_legal_positions m N p d.

(** rules.rs:119-124: [map_variant_positions]. *)
Definition map_variant_positions (l : res (list position)) (wrap : position -> vpos)
  : res (list vpos) := ps <- l ;; Ret (map wrap ps).

(** rules.rs:36-69: [ClassicRules] on variant positions. *)
Definition classic_rules (m : mode) (v : vpos) (d : dice) : res (list vpos) :=
  match v with
  | VBackgammon p => map_variant_positions (generate_legal_positions m 15 p d) VBackgammon
  | VNackgammon p => map_variant_positions (generate_legal_positions m 15 p d) VNackgammon
  | VLonggammon p => map_variant_positions (generate_legal_positions m 15 p d) VLonggammon
  | VHypergammon p => map_variant_positions (generate_legal_positions m 3 p d) VHypergammon
  | VHypergammon2 p => map_variant_positions (generate_legal_positions m 2 p d) VHypergammon2
  | VHypergammon4 p => map_variant_positions (generate_legal_positions m 4 p d) VHypergammon4
  | VHypergammon5 p => map_variant_positions (generate_legal_positions m 5 p d) VHypergammon5
  end.

(** rules.rs:26-28: the free function [legal_positions]. *)
Definition legal_positions (m : mode) (v : vpos) (d : dice) : res (list vpos) := classic_rules m v d.

(** [iter.filter(f)] with a predicate that may panic (rules.rs:74-80). *)
Fixpoint mfilter {A} (f : A -> res bool) (l : list A) : res (list A) :=
  match l with
  | [] => Ret []
  | a :: l' => b <- f a ;; r <- mfilter f l' ;; Ret (if b then a :: r else r)
  end.

(** rules.rs:71-82: [NoHitRules] on positions. *)
Definition no_hit_positions (m : mode) (N : Z) (p : position) (d : dice) : res (list position) :=
  legal <- generate_legal_positions m N p d ;;
  mfilter (fun next => a <- o_bar m next ;; b <- o_bar m p ;; Ret (a <=? b)) legal.

(** rules.rs:84-117: [NoHitRules] on variant positions. *)
Definition no_hit_rules (m : mode) (v : vpos) (d : dice) : res (list vpos) :=
  match v with
  | VBackgammon p => map_variant_positions (no_hit_positions m 15 p d) VBackgammon
  | VNackgammon p => map_variant_positions (no_hit_positions m 15 p d) VNackgammon
  | VLonggammon p => map_variant_positions (no_hit_positions m 15 p d) VLonggammon
  | VHypergammon p => map_variant_positions (no_hit_positions m 3 p d) VHypergammon
  | VHypergammon2 p => map_variant_positions (no_hit_positions m 2 p d) VHypergammon2
  | VHypergammon4 p => map_variant_positions (no_hit_positions m 4 p d) VHypergammon4
  | VHypergammon5 p => map_variant_positions (no_hit_positions m 5 p d) VHypergammon5
  end.
