(** Model of cBinop_perform_op and the message handlers of
    /repo/hvcc/generators/ir2c/static/HvControlBinop.c. *)
From Verif Require Export Float32.

(** BinopType, HvControlBinop.h:26-51. *)
Inductive binop :=
| ADD | SUBTRACT | MULTIPLY | DIVIDE | INT_DIV | MOD_BIPOLAR | MOD_UNIPOLAR
| BIT_LEFTSHIFT | BIT_RIGHTSHIFT | BIT_AND | BIT_XOR | BIT_OR
| EQ | NEQ | LOGICAL_AND | LOGICAL_OR | LESS_THAN | LESS_THAN_EQL | GREATER_THAN | GREATER_THAN_EQL
| MAX | MIN | POW | ATAN2.

(** C operators on int: undefined on zero divisors and on overflow; << also on negative left
    operands and on shift counts outside 0..31 (C99 6.5.7); >> of a negative value is arithmetic. *)
Definition c_div (a b : Z) : outcome Z :=
  if (b =? 0) || ((a =? int_min) && (b =? -1)) then UB else Ok (Z.quot a b).
Definition c_rem (a b : Z) : outcome Z :=
  if (b =? 0) || ((a =? int_min) && (b =? -1)) then UB else Ok (Z.rem a b).
Definition c_shl (a b : Z) : outcome Z :=
  if (0 <=? b) && (b <? 32) && (0 <=? a) && (a * 2 ^ b <=? int_max) then Ok (a * 2 ^ b) else UB.
Definition c_shr (a b : Z) : outcome Z := if (0 <=? b) && (b <? 32) then Ok (a / 2 ^ b) else UB.

Section Binop.
(** powf and atan2f of the C library. *)
Variable powf atan2f : f32 -> f32 -> f32.

Definition fbool (b : bool) : f32 := if b then fone else fzero.
(** cBinop_perform_op, HvControlBinop.c:24-61. *)
Definition perform_op (op : binop) (f k : f32) : outcome f32 :=
  match op with
  | ADD => Ok (fadd f k)
  | SUBTRACT => Ok (fsub f k)
  | MULTIPLY => Ok (fmul f k)
  | DIVIDE => Ok (if negb (feqb k fzero) then fdiv f k else fzero)
  | INT_DIV => let! ik := to_int k in
               if negb (ik =? 0) then let! i := to_int f in let! q := c_div i ik in Ok (of_int q) else Ok fzero
  | MOD_BIPOLAR => let! ik := to_int k in
               if negb (ik =? 0) then let! i := to_int f in let! q := c_rem i ik in Ok (of_int q) else Ok fzero
  | MOD_UNIPOLAR =>
      let! f1 := (if feqb k fzero then Ok fzero
                  else let! i := to_int f in let! ik := to_int k in let! q := c_rem i ik in Ok (of_int q)) in
      Ok (if fltb f1 fzero then fadd f1 (fabs k) else f1)
  | BIT_LEFTSHIFT => let! i := to_int f in let! j := to_int k in let! r := c_shl i j in Ok (of_int r)
  | BIT_RIGHTSHIFT => let! i := to_int f in let! j := to_int k in let! r := c_shr i j in Ok (of_int r)
  | BIT_AND => let! i := to_int f in let! j := to_int k in Ok (of_int (Z.land i j))
  | BIT_XOR => let! i := to_int f in let! j := to_int k in Ok (of_int (Z.lxor i j))
  | BIT_OR => let! i := to_int f in let! j := to_int k in Ok (of_int (Z.lor i j))
  | EQ => Ok (fbool (feqb f k))
  | NEQ => Ok (fbool (negb (feqb f k)))
  | LOGICAL_AND => Ok (if feqb f fzero || feqb k fzero then fzero else fone)
  | LOGICAL_OR => Ok (if feqb f fzero && feqb k fzero then fzero else fone)
  | LESS_THAN => Ok (fbool (fltb f k))
  | LESS_THAN_EQL => Ok (fbool (fleb f k))
  | GREATER_THAN => Ok (fbool (fltb k f))
  | GREATER_THAN_EQL => Ok (fbool (fleb k f))
  | MAX => Ok (fmax f k)
  | MIN => Ok (fmin f k)
  | POW => Ok (if fltb fzero f then powf f k else fzero)
  | ATAN2 => Ok (if feqb f fzero && feqb k fzero then fzero else atan2f f k)
  end.

(** cBinop_onMessage, HvControlBinop.c:63-87; a message is seen through its first two elements
    ([None]: absent or not a float).  New operand and the value sent, if any. *)
Inductive binop_in := Left (e0 e1 : option f32) | Right (e0 : option f32).
Definition cBinop_onMessage (op : binop) (k : f32) (i : binop_in) : outcome (f32 * option f32) :=
  match i with
  | Left (Some f) e1 => let k1 := match e1 with Some g => g | None => k end in
                        let! r := perform_op op f k1 in Ok (k1, Some r)
  | Left None _ => Ok (k, None)
  | Right (Some g) => Ok (g, None)
  | Right None => Ok (k, None)
  end.
(** cBinop_k_onMessage, HvControlBinop.c:89-100. *)
Definition cBinop_k_onMessage (op : binop) (k : f32) (e0 e1 : option f32) : outcome (option f32) :=
  match e0 with
  | Some f => let! r := perform_op op f (match e1 with Some g => g | None => k end) in Ok (Some r)
  | None => Ok None
  end.
Fixpoint binop_run (op : binop) (k : f32) (l : list binop_in) : outcome (f32 * list f32) :=
  match l with
  | [] => Ok (k, [])
  | i :: l' => let! (k1, r) := cBinop_onMessage op k i in
               let! (k2, out) := binop_run op k1 l' in
               Ok (k2, match r with Some x => x :: out | None => out end)
  end.
End Binop.
