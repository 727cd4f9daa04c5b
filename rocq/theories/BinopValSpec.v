(** What the control operators mean on real numbers. *)
From Verif Require Import BinopModel BinopSpec UnopModel.
From Flocq Require Import Core.
From Coq Require Import Reals.
Local Open Scope R_scope.

(** The single precision number nearest to x (ties to even), gradual underflow, unbounded range. *)
Definition nearest (x : R) : R := round radix2 (FLT_exp (-149) 24) ZnearestE x.
(** r is x rounded to single precision; out of range: infinity with the sign of x. *)
Definition rounds_to (x : R) (r : f32) : Prop :=
  (Rabs (nearest x) < bpow radix2 128 -> is_finite r = true /\ val r = nearest x) /\
  (bpow radix2 128 <= Rabs (nearest x) -> exists s, r = B754_infinity s /\ (s = true <-> x < 0)).
(** r is 1 if P holds, else 0. *)
Definition truth (P : Prop) (r : f32) : Prop := (P -> is_int r 1) /\ (~ P -> is_int r 0).
Definition equals (x : R) (r : f32) : Prop := is_finite r = true /\ val r = x.

(** r is the value of [f op k] for finite operands. *)
Definition computes (powf atan2f : f32 -> f32 -> f32) (op : binop) (f k r : f32) : Prop :=
  let x := val f in let y := val k in
  let i := int_of f in let j := int_of k in
  match op with
  | ADD => rounds_to (x + y) r
  | SUBTRACT => rounds_to (x - y) r
  | MULTIPLY => rounds_to (x * y) r
  | DIVIDE => (y <> 0 -> rounds_to (x / y) r) /\ (y = 0 -> is_zero r)
  | INT_DIV => (j <> 0%Z -> rounds_to (IZR (Z.quot i j)) r) /\ (j = 0%Z -> is_zero r)
  | MOD_BIPOLAR => (j <> 0%Z -> rounds_to (IZR (Z.rem i j)) r) /\ (j = 0%Z -> is_zero r)
  | MOD_UNIPOLAR =>
      (y = 0 -> is_zero r) /\
      (y <> 0 -> (0 <= Z.rem i j)%Z -> rounds_to (IZR (Z.rem i j)) r) /\
      (y <> 0 -> (Z.rem i j < 0)%Z -> rounds_to (nearest (IZR (Z.rem i j)) + Rabs y) r)
  | BIT_LEFTSHIFT => rounds_to (IZR (i * 2 ^ j)) r
  | BIT_RIGHTSHIFT => rounds_to (IZR (i / 2 ^ j)) r
  | BIT_AND => rounds_to (IZR (Z.land i j)) r
  | BIT_XOR => rounds_to (IZR (Z.lxor i j)) r
  | BIT_OR => rounds_to (IZR (Z.lor i j)) r
  | EQ => truth (x = y) r
  | NEQ => truth (x <> y) r
  | LOGICAL_AND => truth (x <> 0 /\ y <> 0) r
  | LOGICAL_OR => truth (x <> 0 \/ y <> 0) r
  | LESS_THAN => truth (x < y) r
  | LESS_THAN_EQL => truth (x <= y) r
  | GREATER_THAN => truth (x > y) r
  | GREATER_THAN_EQL => truth (x >= y) r
  | MAX => equals (Rmax x y) r
  | MIN => equals (Rmin x y) r
  | POW => (0 < x -> r = powf f k) /\ (x <= 0 -> is_zero r)
  | ATAN2 => (x <> 0 \/ y <> 0 -> r = atan2f f k) /\ (x = 0 /\ y = 0 -> is_zero r)
  end.

(** The operand in force after a history: the latest number received for it, else the initial one. *)
Definition operand_of (i : binop_in) : option f32 :=
  match i with Left (Some _) e1 => e1 | Left None _ => None | Right e0 => e0 end.
Fixpoint in_force (k : f32) (l : list binop_in) : f32 :=
  match l with [] => k | i :: l' => in_force (match operand_of i with Some g => g | None => k end) l' end.
(** The questions asked: left operand and operand in force at that moment. *)
Fixpoint questions (k : f32) (before l : list binop_in) : list (f32 * f32) :=
  match l with
  | [] => []
  | i :: l' =>
    match i with
    | Left (Some f) _ => (f, in_force k (before ++ [i])) :: questions k (before ++ [i]) l'
    | _ => questions k (before ++ [i]) l'
    end
  end.

(** Unary operators: what is fixed by arithmetic; the others are the C library's.  12102203/2^23 and
    14572505/2^25 are the floats nearest to 1/ln 2 and 1/ln 10. *)
Definition unop_computes (lib : unop -> f32 -> f32) (op : unop) (f r : f32) : Prop :=
  let x := val f in
  match op with
  | ABS => equals (Rabs x) r
  | SQRT => (0 < x -> rounds_to (sqrt x) r) /\ (x <= 0 -> is_zero r)
  | LOG => (0 < x -> r = lib LOG f) /\ (x <= 0 -> is_zero r)
  | LOG2 => (0 < x -> is_finite (lib LOG f) = true -> rounds_to (12102203 / 8388608 * val (lib LOG f)) r) /\ (x <= 0 -> is_zero r)
  | LOG10 => (0 < x -> is_finite (lib LOG f) = true -> rounds_to (14572505 / 33554432 * val (lib LOG f)) r) /\ (x <= 0 -> is_zero r)
  | CEIL => equals (IZR (Zceil x)) r
  | FLOOR => equals (IZR (Zfloor x)) r
  | ROUND => exists n : Z, equals (IZR n) r /\ Rabs (x - IZR n) <= / 2 /\
                           (Rabs (x - IZR n) = / 2 -> Rabs x < Rabs (IZR n))
  | _ => r = lib op f
  end.
