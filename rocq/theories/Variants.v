(** Model of /repo/src/variants.rs. *)
From Coq Require Import Strings.String.
From Verif Require Export Str Position.
Open Scope Z_scope.

(** variants.rs:8-17: [Variant]. *)
Inductive variant : Type :=
| Backgammon | Nackgammon | Longgammon | Hypergammon | Hypergammon2 | Hypergammon4 | Hypergammon5.

(** Derived [PartialEq] (variants.rs:8). *)
Definition variant_eqb (a b : variant) : bool :=
  match a, b with
  | Backgammon, Backgammon | Nackgammon, Nackgammon | Longgammon, Longgammon
  | Hypergammon, Hypergammon | Hypergammon2, Hypergammon2 | Hypergammon4, Hypergammon4
  | Hypergammon5, Hypergammon5 => true
  | _, _ => false
  end.

(** variants.rs:19-27: [VARIANTS]. *)
Definition VARIANTS : list variant :=
  [Backgammon; Nackgammon; Longgammon; Hypergammon; Hypergammon2; Hypergammon4; Hypergammon5].

(** variants.rs:29-42: [Display]. *)
Definition variant_display (v : variant) : str :=
  match v with
  | Backgammon => lit "backgammon"
  | Nackgammon => lit "nackgammon"
  | Longgammon => lit "longgammon"
  | Hypergammon => lit "hypergammon"
  | Hypergammon2 => lit "hypergammon2"
  | Hypergammon4 => lit "hypergammon4"
  | Hypergammon5 => lit "hypergammon5"
  end.

(** variants.rs:44-59: [FromStr]. *)
Definition variant_from_str (s : str) : option variant :=
  let t := lower (trim s) in
  if str_eqb t (lit "backgammon") then Some Backgammon
  else if str_eqb t (lit "nackgammon") then Some Nackgammon
  else if str_eqb t (lit "longgammon") then Some Longgammon
  else if str_eqb t (lit "hypergammon") then Some Hypergammon
  else if str_eqb t (lit "hypergammon2") then Some Hypergammon2
  else if str_eqb t (lit "hypergammon4") then Some Hypergammon4
  else if str_eqb t (lit "hypergammon5") then Some Hypergammon5
  else None.

(** variants.rs:61-70: [VariantPosition]. *)
Inductive vpos : Type :=
| VBackgammon (p : position)      (* Position<15> *)
| VNackgammon (p : position)      (* Position<15> *)
| VLonggammon (p : position)      (* Position<15> *)
| VHypergammon (p : position)     (* Position<3> *)
| VHypergammon2 (p : position)    (* Position<2> *)
| VHypergammon4 (p : position)    (* Position<4> *)
| VHypergammon5 (p : position).   (* Position<5> *)

(** variants.rs:198-260: the start positions. *)
Definition mk (ps : list Z) : position := {| turn := true; pips := ps; x_off := 0; o_off := 0 |}.
(** variants.rs:199-206: [BACKGAMMON]. *)
Definition BACKGAMMON : position := mk
  [0; -2; 0; 0; 0; 0; 5; 0; 3; 0; 0; 0; -5; 5; 0; 0; 0; -3; 0; -5; 0; 0; 0; 0; 2; 0].
(** variants.rs:208-215: [NACKGAMMON]. *)
Definition NACKGAMMON : position := mk
  [0; -2; -2; 0; 0; 0; 4; 0; 3; 0; 0; 0; -4; 4; 0; 0; 0; -3; 0; -4; 0; 0; 0; 2; 2; 0].
(** variants.rs:217-224: [HYPERGAMMON]. *)
Definition HYPERGAMMON : position := mk
  [0; -1; -1; -1; 0; 0; 0; 0; 0; 0; 0; 0; 0; 0; 0; 0; 0; 0; 0; 0; 0; 0; 1; 1; 1; 0].
(** variants.rs:226-233: [HYPERGAMMON2]. *)
Definition HYPERGAMMON2 : position := mk
  [0; -1; -1; 0; 0; 0; 0; 0; 0; 0; 0; 0; 0; 0; 0; 0; 0; 0; 0; 0; 0; 0; 0; 1; 1; 0].
(** variants.rs:235-242: [HYPERGAMMON4]. *)
Definition HYPERGAMMON4 : position := mk
  [0; -1; -1; -1; -1; 0; 0; 0; 0; 0; 0; 0; 0; 0; 0; 0; 0; 0; 0; 0; 0; 1; 1; 1; 1; 0].
(** variants.rs:244-251: [HYPERGAMMON5]. *)
Definition HYPERGAMMON5 : position := mk
  [0; -1; -1; -1; -1; -1; 0; 0; 0; 0; 0; 0; 0; 0; 0; 0; 0; 0; 0; 0; 1; 1; 1; 1; 1; 0].
(** variants.rs:253-260: [LONGGAMMON]. *)
Definition LONGGAMMON : position := mk
  [0; -15; 0; 0; 0; 0; 0; 0; 0; 0; 0; 0; 0; 0; 0; 0; 0; 0; 0; 0; 0; 0; 0; 0; 15; 0].

(** variants.rs:72-77 and 79-118: [VariantSpec], [Variant::spec]. *)
Record variant_spec : Type := { spec_name : str; spec_num_checkers : Z; spec_start : vpos }.
(** variants.rs:80-118: [spec]. *)
Definition spec (v : variant) : variant_spec :=
  match v with
  | Backgammon => {| spec_name := lit "Backgammon"; spec_num_checkers := 15;
                     spec_start := VBackgammon BACKGAMMON |}
  | Nackgammon => {| spec_name := lit "Nackgammon"; spec_num_checkers := 15;
                     spec_start := VNackgammon NACKGAMMON |}
  | Longgammon => {| spec_name := lit "Longgammon"; spec_num_checkers := 15;
                     spec_start := VLonggammon LONGGAMMON |}
  | Hypergammon => {| spec_name := lit "Hypergammon (3)"; spec_num_checkers := 3;
                      spec_start := VHypergammon HYPERGAMMON |}
  | Hypergammon2 => {| spec_name := lit "Hypergammon (2)"; spec_num_checkers := 2;
                       spec_start := VHypergammon2 HYPERGAMMON2 |}
  | Hypergammon4 => {| spec_name := lit "Hypergammon (4)"; spec_num_checkers := 4;
                       spec_start := VHypergammon4 HYPERGAMMON4 |}
  | Hypergammon5 => {| spec_name := lit "Hypergammon (5)"; spec_num_checkers := 5;
                       spec_start := VHypergammon5 HYPERGAMMON5 |}
  end.

(** variants.rs:120-122: [start_position]. *)
Definition start_position (v : variant) : vpos := spec_start (spec v).

(** variants.rs:126-136: [VariantPosition::variant]. *)
Definition vp_variant (v : vpos) : variant :=
  match v with
  | VBackgammon _ => Backgammon
  | VNackgammon _ => Nackgammon
  | VLonggammon _ => Longgammon
  | VHypergammon _ => Hypergammon
  | VHypergammon2 _ => Hypergammon2
  | VHypergammon4 _ => Hypergammon4
  | VHypergammon5 _ => Hypergammon5
  end.

(** variants.rs:138-148: [VariantPosition::num_checkers]. *)
Definition vp_num_checkers (v : vpos) : Z :=
  match v with
  | VBackgammon _ => 15
  | VNackgammon _ => 15
  | VLonggammon _ => 15
  | VHypergammon _ => 3
  | VHypergammon2 _ => 2
  | VHypergammon4 _ => 4
  | VHypergammon5 _ => 5
  end.

(** variants.rs:150-160: [VariantPosition::turn]. *)
Definition vp_turn (v : vpos) : bool :=
  match v with
  | VBackgammon p => turn p
  | VNackgammon p => turn p
  | VLonggammon p => turn p
  | VHypergammon p => turn p
  | VHypergammon2 p => turn p
  | VHypergammon4 p => turn p
  | VHypergammon5 p => turn p
  end.

(** variants.rs:162-172: [VariantPosition::phase]. *)
Definition vp_phase (m : mode) (v : vpos) : res game_phase :=
  match v with
  | VBackgammon p => phase m 15 p
  | VNackgammon p => phase m 15 p
  | VLonggammon p => phase m 15 p
  | VHypergammon p => phase m 3 p
  | VHypergammon2 p => phase m 2 p
  | VHypergammon4 p => phase m 4 p
  | VHypergammon5 p => phase m 5 p
  end.

(** variants.rs:174-184: [VariantPosition::game_state]. *)
Definition vp_game_state (m : mode) (v : vpos) : res game_state_t :=
  match v with
  | VBackgammon p => game_state m 15 p
  | VNackgammon p => game_state m 15 p
  | VLonggammon p => game_state m 15 p
  | VHypergammon p => game_state m 3 p
  | VHypergammon2 p => game_state m 2 p
  | VHypergammon4 p => game_state m 4 p
  | VHypergammon5 p => game_state m 5 p
  end.

(** Derived [PartialEq] of [VariantPosition] (variants.rs:61). *)
Definition vpos_eqb (a b : vpos) : bool :=
  match a, b with
  | VBackgammon p, VBackgammon q | VNackgammon p, VNackgammon q
  | VLonggammon p, VLonggammon q | VHypergammon p, VHypergammon q
  | VHypergammon2 p, VHypergammon2 q | VHypergammon4 p, VHypergammon4 q
  | VHypergammon5 p, VHypergammon5 q => position_eqb p q
  | _, _ => false
  end.
