(** IEEE binary32 ("float" in the C sources), taken from Flocq's BinarySingleNaN (one NaN; the
    payload of a NaN is never observed by the modelled code).  Arithmetic rounds to nearest even.

    [to_int] is the C conversion (int) f: truncation, undefined ([UB]) for NaN, infinities and
    values whose truncation does not fit 32 bits. *)
From Verif Require Export Base.
From Flocq Require Export IEEE754.BinarySingleNaN.
From Flocq Require Import Core.

Global Instance prec24 : FLX.Prec_gt_0 24 := eq_refl.
Global Instance prec24_128 : Prec_lt_emax 24 128 := eq_refl.

Notation f32 := (binary_float 24 128).
Definition fadd (x y : f32) : f32 := Bplus mode_NE x y.
Definition fsub (x y : f32) : f32 := Bminus mode_NE x y.
Definition fmul (x y : f32) : f32 := Bmult mode_NE x y.
Definition fdiv (x y : f32) : f32 := Bdiv mode_NE x y.
Definition feqb (x y : f32) : bool := Beqb x y.
Definition fltb (x y : f32) : bool := Bltb x y.
Definition fleb (x y : f32) : bool := Bleb x y.
Definition fabs (x : f32) : f32 := Babs x.
(** m * 2^e, rounded; a literal or an integer converted to float. *)
Definition fdyadic (m e : Z) : f32 := binary_normalize 24 128 _ _ mode_NE m e false.
Definition of_int (z : Z) : f32 := fdyadic z 0.
Definition fzero : f32 := B754_zero false.
Definition fone : f32 := of_int 1.

Definition int_min : Z := -2147483648.
Definition int_max : Z := 2147483647.
Definition fits_int (z : Z) : bool := (int_min <=? z) && (z <=? int_max).
Definition to_int (x : f32) : outcome Z :=
  if is_finite x then let z := Btrunc x in if fits_int z then Ok z else UB else UB.
(** (hv_uint32_t) f: undefined unless the truncation fits. *)
Definition to_u32 (x : f32) : outcome Z :=
  if is_finite x then let z := Btrunc x in if (0 <=? z) && (z <? 4294967296) then Ok z else UB else UB.
(** fmaxf / fminf: a NaN operand is ignored. *)
Definition fmax (x y : f32) : f32 := if is_nan x then y else if is_nan y then x else if fltb x y then y else x.
Definition fmin (x y : f32) : f32 := if is_nan x then y else if is_nan y then x else if fltb y x then y else x.
