(** IEEE binary64 ("double" in the C sources), as Float32.v does binary32. *)
From Verif Require Export Float32.
From Flocq Require Import Core.

Global Instance prec53 : FLX.Prec_gt_0 53 := eq_refl.
Global Instance prec53_1024 : Prec_lt_emax 53 1024 := eq_refl.

Notation f64 := (binary_float 53 1024).
Definition dmul (x y : f64) : f64 := Bmult mode_NE x y.
Definition ddiv (x y : f64) : f64 := Bdiv mode_NE x y.
Definition dleb (x y : f64) : bool := Bleb x y.
Definition dltb (x y : f64) : bool := Bltb x y.
Definition d_of_int (z : Z) : f64 := binary_normalize 53 1024 _ _ mode_NE z 0 false.
Definition dzero : f64 := B754_zero false.
(** fmax *)
Definition dmax (x y : f64) : f64 := if is_nan x then y else if is_nan y then x else if dltb x y then y else x.
(** Conversion between the two formats: to double it is exact, to float it rounds. *)
Definition widen (x : f32) : f64 :=
  match x with
  | B754_zero s => B754_zero s
  | B754_infinity s => B754_infinity s
  | B754_nan => B754_nan
  | B754_finite s m e _ => binary_normalize 53 1024 _ _ mode_NE (cond_Zopp s (Zpos m)) e s
  end.
Definition narrow (x : f64) : f32 :=
  match x with
  | B754_zero s => B754_zero s
  | B754_infinity s => B754_infinity s
  | B754_nan => B754_nan
  | B754_finite s m e _ => binary_normalize 24 128 _ _ mode_NE (cond_Zopp s (Zpos m)) e s
  end.
(** (hv_uint32_t) d: undefined unless the truncation fits. *)
Definition d_to_u32 (x : f64) : outcome Z :=
  if is_finite x then let z := Btrunc x in if (0 <=? z) && (z <? 4294967296) then Ok z else UB else UB.
