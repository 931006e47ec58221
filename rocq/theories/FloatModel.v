(** The scalar type [f64]: IEEE 754 binary64 with rounding to nearest, ties to even, as Flocq defines it. The payload of NaN, which Rust
    leaves unspecified, is not represented. *)
From Coq Require Import ZArith.
From Flocq Require Import Core.
From Flocq.IEEE754 Require Import BinarySingleNaN.

Definition f64 : Type := binary_float 53 1024.
#[global] Instance f64_prec : Prec_gt_0 53 := eq_refl.
#[global] Instance f64_emax : Prec_lt_emax 53 1024 := eq_refl.
Definition f64_add : f64 -> f64 -> f64 := Bplus mode_NE.
Definition f64_mul : f64 -> f64 -> f64 := Bmult mode_NE.
Definition f64_zero : f64 := B754_zero false.
