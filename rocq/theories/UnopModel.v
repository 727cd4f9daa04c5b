(** Model of /repo/hvcc/generators/ir2c/static/HvControlUnop.c. *)
From Verif Require Export Float32.

(** UnopType, HvControlUnop.h:26-48. *)
Inductive unop :=
| SIN | SINH | COS | COSH | TAN | TANH | ASIN | ASINH | ACOS | ACOSH | ATAN | ATANH
| EXP | ABS | SQRT | LOG | LOG2 | LOG10 | CEIL | FLOOR | ROUND.

Section Unop.
(** The C library's float versions of the functions that IEEE 754 does not fix. *)
Variable lib : unop -> f32 -> f32.
(** The literals of lines 41-42, 1.442695040888963f and 0.434294481903252f: nearest floats,
    12102203 * 2^-23 and 14572505 * 2^-25. *)
Definition log2e : f32 := fdyadic 12102203 (-23).
Definition log10e : f32 := fdyadic 14572505 (-25).
(** The switch, HvControlUnop.c:23-46.  sqrtf is correctly rounded; roundf rounds halves away. *)
Definition unop_value (op : unop) (f : f32) : f32 :=
  match op with
  | ABS => fabs f
  | SQRT => if fltb fzero f then Bsqrt mode_NE f else fzero
  | LOG => if fltb fzero f then lib LOG f else fzero
  | LOG2 => if fltb fzero f then fmul log2e (lib LOG f) else fzero
  | LOG10 => if fltb fzero f then fmul log10e (lib LOG f) else fzero
  | CEIL => Bnearbyint mode_UP f
  | FLOOR => Bnearbyint mode_DN f
  | ROUND => Bnearbyint mode_NA f
  | _ => lib op f
  end.
(** cUnop_onMessage, l.19-52; [e0]: the first element if it is a float. *)
Definition cUnop_onMessage (op : unop) (e0 : option f32) : list f32 :=
  match e0 with Some f => [unop_value op f] | None => [] end.
End Unop.
