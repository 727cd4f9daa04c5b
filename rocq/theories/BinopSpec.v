(** Independent vocabulary for the binop properties: real values. *)
From Verif Require Import BinopModel.
From Flocq Require Import Core.
From Coq Require Import Reals.

Notation val := (@B2R 24 128).
(** f is a number whose integer part fits a C int. *)
Definition fits (f : f32) : Prop := is_finite f = true /\ (-2147483649 < val f < 2147483648)%R.
(** f is the integer z. *)
Definition is_int (f : f32) (z : Z) : Prop := is_finite f = true /\ val f = IZR z.
Definition is_zero (f : f32) : Prop := is_int f 0.
Local Open Scope R_scope.
Definition int_of (f : f32) : Z := Ztrunc (val f).
(** The one quotient that does not fit: INT_MIN / -1. *)
Definition overflowing (f k : f32) : Prop := int_of f = (-2147483648)%Z /\ int_of k = (-1)%Z.

(** Exactly when an operation is defined. *)
Definition safe (op : binop) (f k : f32) : Prop :=
  match op with
  | INT_DIV | MOD_BIPOLAR => fits k /\ (Rabs (val k) < 1 \/ fits f /\ ~ overflowing f k)
  | MOD_UNIPOLAR => is_zero k \/ fits k /\ fits f /\ 1 <= Rabs (val k) /\ ~ overflowing f k
  | BIT_LEFTSHIFT => fits f /\ fits k /\
      (0 <= int_of k < 32 /\ 0 <= int_of f /\ int_of f * 2 ^ int_of k < 2147483648)%Z
  | BIT_RIGHTSHIFT => fits f /\ fits k /\ (0 <= int_of k < 32)%Z
  | BIT_AND | BIT_XOR | BIT_OR => fits f /\ fits k
  | _ => True
  end.
