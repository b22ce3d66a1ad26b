(** Rust's [f32]: IEEE 754 binary32, rounding to nearest even, as formalised by the Flocq library (all
    NaNs are one value; no payloads are looked at by the modelled code).  Language layer, not a file
    of /repo; used by dice_gen.rs:56-71. *)
From Flocq Require Import IEEE754.BinarySingleNaN.
From Verif Require Export Dice.
Open Scope Z_scope.

(** The type [f32] (dice_gen.rs:56). *)
Definition f32 : Type := binary_float 24 128.

(** Side conditions of Flocq's operations. *)
Definition f32_prec : FLX.Prec_gt_0 24 := eq_refl.
Definition f32_emax : Prec_lt_emax 24 128 := eq_refl.

(** [a + b], [a * b], [a / b] (dice_gen.rs:61-65). *)
Definition f32_add (a b : f32) : f32 := @Bplus 24 128 f32_prec f32_emax mode_NE a b.
(** [a * b] (dice_gen.rs:62). *)
Definition f32_mul (a b : f32) : f32 := @Bmult 24 128 f32_prec f32_emax mode_NE a b.
(** [a / b] (dice_gen.rs:62). *)
Definition f32_div (a b : f32) : f32 := @Bdiv 24 128 f32_prec f32_emax mode_NE a b.
(** [a > b] (dice_gen.rs:66): false when a NaN is involved. *)
Definition f32_gt (a b : f32) : bool := match Bcompare a b with Some Gt => true | _ => false end.
(** [n as f32] (dice_gen.rs:62). *)
Definition f32_of_u32 (n : Z) : f32 := binary_normalize 24 128 f32_prec f32_emax mode_NE n 0 false.

(** dice_gen.rs:56-71: [choose_index] on [f32].  [iter().sum::<f32>()] starts from 0.0 or from -0.0,
    depending on the version of the standard library: [minus]. *)
Definition choose_index_f32 (m : Base.mode) (minus : bool) (random_number : Z) (chances : list f32) : res Z :=
  choose_index m f32_add f32_mul f32_div f32_gt (B754_zero false) (B754_zero minus) f32_of_u32
    random_number chances.
