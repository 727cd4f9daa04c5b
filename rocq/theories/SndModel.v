(** Model of signal objects and of the signal abstractions of /repo/hvcc/interpreters/pd2hv/libs/pd.

    HvMath.h computes every lane of a vector independently: one lane is modelled.  A lane is a word of 32 bits
    (a non-negative integer below 2^32); [enc] and [of_bits] convert between words and floats. *)
From Verif Require Export PhasorModel.
Local Open Scope Z_scope.

(** ** Targets: the four instruction sets of HvMath.h.  [Neon7]: __ARM_ARCH < 8. *)
Inductive arch := AVX | SSE | Neon7 | Neon8 | Scalar.
(** [t_fma]: HV_SIMD_FMA (HvUtils.h:62-64); for [Scalar]: hv_fma_f is fmaf (HvUtils.h:259-263).
    [t_nan]: the encoding of the NaN the processor's operations produce.
    [t_rsqrte], [t_rsqrts]: the instructions vrsqrteq_f32 and vrsqrtsq_f32.
    [t_log]: logf of the C library. *)
Record machine := mkMachine { t_arch : arch; t_fma : bool; t_nan : Z; t_rsqrte : f32 -> f32; t_rsqrts : f32 -> f32 -> f32; t_log : f32 -> f32 }.

(** The binary32 encoding. *)
Definition enc (nan : Z) (x : f32) : Z :=
  let sign (s : bool) := if s then 2147483648 else 0 in
  match x with
  | B754_zero s => sign s
  | B754_infinity s => sign s + 2139095040
  | B754_nan => nan
  | B754_finite s m e _ => sign s + (if Zpos m <? 8388608 then Zpos m else (e + 150) * 8388608 + (Zpos m - 8388608))
  end.
(** The float constant of a decimal number [m / 10^k]: the nearest float. *)
Definition decimal (m : Z) (k : nat) : f32 :=
  let n := m * 2 ^ 80 in
  let d := 10 ^ Z.of_nat k in
  fdyadic (2 * (n / d) + (if n mod d =? 0 then 0 else 1)) (-81).

(** ** Instructions *)
(** _mm_min_ps, _mm_max_ps: the second operand unless the comparison holds. *)
Definition min_x86 (x y : f32) : f32 := if fltb x y then x else y.
Definition max_x86 (x y : f32) : f32 := if fltb y x then x else y.
(** vminq_f32, vmaxq_f32: a NaN if one of the operands is one; -0 is less than 0. *)
Definition min_neon (x y : f32) : f32 :=
  if is_nan x || is_nan y then B754_nan
  else match x, y with B754_zero s, B754_zero s' => B754_zero (s || s') | _, _ => if fltb x y then x else y end.
Definition max_neon (x y : f32) : f32 :=
  if is_nan x || is_nan y then B754_nan
  else match x, y with B754_zero s, B754_zero s' => B754_zero (s && s') | _, _ => if fltb y x then x else y end.
(** vrecpeq_f32 (Arm Architecture Reference Manual, FPRecipEstimate and RecipEstimate): for x = m * 2^e with
    2^23 <= m < 2^24, the 9 leading bits of m select a table entry. *)
Definition recip_estimate (q : Z) : Z := (2 ^ 19 / (2 * q + 1) + 1) / 2.
Definition vrecpe (x : f32) : f32 :=
  match x with
  | B754_nan => B754_nan
  | B754_zero s => B754_infinity s
  | B754_infinity s => B754_zero s
  | B754_finite s m e _ =>
      let shift := 24 - Zpos (SpecFloat.digits2_pos m) in       (* subnormal numbers *)
      let m' := Zpos m * 2 ^ shift in
      let est := recip_estimate (m' / 2 ^ 15) in
      fdyadic (if s then - est else est) (- (e - shift) - 32)
  end.
(** The mask of a comparison. *)
Definition mask (b : bool) : Z := if b then 4294967295 else 0.

(** ** HvMath.h *)
Inductive sop :=
| Add | Sub | Mul | Div | Min | Max | Abs | Neg | Floor | Ceil | Sqrt
| Gt | Gte | Lt | Lte | Eq | Neq | And | Or | Andnot
| CastFI | Log2
| AddI                             (* integer lanes *)
| TabRead (t : list f32)           (* __tabread~if of a table *)
| Math (f : f32 -> f32).           (* a function of the C library: sin, tan, tanh, ... *)

Section Ops.
Variable M : machine.
Notation F := (enc (t_nan M)).
Notation V := of_bits.

Definition compare (op : sop) (x y : f32) : bool :=
  match op with
  | Gt => fltb y x | Gte => fleb y x | Lt => fltb x y | Lte => fleb x y | Eq => feqb x y
  | Neq => negb (feqb x y)
  | _ => false
  end.
(** HvMath.h:623-694.  _CMP_NEQ_OQ (AVX) is false for NaNs. *)
Definition hv_compare (op : sop) (a b : Z) : Z :=
  let c := compare op (V a) (V b) in
  match t_arch M with
  | AVX => mask (match op with Neq => c && negb (is_nan (V a) || is_nan (V b)) | _ => c end)
  | SSE | Neon7 | Neon8 => mask c
  | Scalar => F (if c then fone else fzero)
  end.
(** HvMath.h:696-708 *)
Definition hv_or (a b : Z) : outcome Z :=
  match t_arch M with
  | Scalar =>
      if feqb (V a) fzero && feqb (V b) fzero then Ok (F fzero)
      else if feqb (V a) fzero then Ok b
      else if feqb (V b) fzero then Ok a
      else AssertFail
  | _ => Ok (Z.lor b a)
  end.
(** HvMath.h:710-722 *)
Definition hv_and (a b : Z) : outcome Z :=
  match t_arch M with
  | Scalar =>
      if feqb (V a) fzero || feqb (V b) fzero then Ok (F fzero)
      else if feqb (V a) fone then Ok b
      else if feqb (V b) fone then Ok a
      else AssertFail
  | _ => Ok (Z.land b a)
  end.
(** HvMath.h:736-746 *)
Definition hv_andnot (a b : Z) : Z :=
  match t_arch M with Scalar => if feqb (V a) fzero then b else F fzero | _ => Z.ldiff b a end.
(** HvMath.h:529-543 *)
Definition hv_div (a b : Z) : Z :=
  match t_arch M with
  | AVX | SSE => Z.ldiff (F (fdiv (V a) (V b))) (mask (feqb (V b) fzero))
  | Neon7 | Neon8 => Z.ldiff (F (fmul (V a) (vrecpe (V b)))) (mask (feqb (V b) fzero))
  | Scalar => if negb (feqb (V b) fzero) then F (fdiv (V a) (V b)) else F fzero
  end.
(** HvMath.h:545-585 *)
Definition hv_min (a b : Z) : Z :=
  F (match t_arch M with AVX | SSE => min_x86 | Neon7 | Neon8 => min_neon | Scalar => fmin end (V a) (V b)).
Definition hv_max (a b : Z) : Z :=
  F (match t_arch M with AVX | SSE => max_x86 | Neon7 | Neon8 => max_neon | Scalar => fmax end (V a) (V b)).
(** HvMath.h:287-297, 299-309 *)
Definition hv_abs (a : Z) : Z :=
  match t_arch M with AVX | SSE => Z.ldiff a 2147483648 | _ => F (fabs (V a)) end.
Definition hv_neg (a : Z) : Z :=
  match t_arch M with
  | AVX | SSE => Z.lxor a 2147483648
  | Neon7 | Neon8 => F (Bopp (V a))
  | Scalar => F (fmul (V a) (of_int (-1)))
  end.
(** HvMath.h:261-272 *)
Definition hv_sqrt (a : Z) : Z :=
  match t_arch M with
  | AVX | SSE | Scalar => F (Bsqrt mode_NE (V a))
  | Neon7 | Neon8 =>
      let x := V a in let y := t_rsqrte M x in
      F (fmul x (fmul (t_rsqrts M (fmul x y) y) y))
  end.
(** HvMath.h:490-500.  The result is an integer lane. *)
Definition hv_cast_fi (a : Z) : outcome Z :=
  match t_arch M with
  | AVX | SSE => Ok (u32 (cvt_sse (V a)))
  | Neon7 | Neon8 => Ok (u32 (cvt_neon (V a)))
  | Scalar => let! z := to_int (V a) in Ok (u32 z)
  end.
(** HvMath.h:75-105.  SSE shifts in zeros, NEON the sign. *)
Definition hv_log2 (a : Z) : outcome Z :=
  let fast (b : Z) :=
    let d := of_int (b - 127) in
    let f := V (Z.lor (Z.ldiff a 4286578688) 1065353216) in
    Ok (F (fadd (fadd d f) (decimal (-9569643) 7))) in
  match t_arch M with
  | AVX => AssertFail
  | SSE => fast (a / 8388608)
  | Neon7 | Neon8 => fast ((if a <? 2147483648 then a else a - 4294967296) / 8388608)
  | Scalar => Ok (F (fmul (decimal 1442695040888963 15) (t_log M (V a))))
  end.
(** HvSignalTabread.h:43-79.  The table has no padding here: its allocated size is its size. *)
Definition hv_tabread (t : list f32) (i : Z) : outcome Z :=
  assert! (i <? 2147483648) && (i <? zlen t) in Ok (F (nth (Z.to_nat i) t fzero)).
(** HvMath.h:119-262: sin, acos, asin, tan, atan, cosh, sinh, tanh, ... are only implemented without SIMD. *)
Definition hv_math (f : f32 -> f32) (a : Z) : outcome Z :=
  match t_arch M with Scalar => Ok (F (f (V a))) | _ => AssertFail end.
(** HvMath.h:748-794 *)
Definition fma32 (x y z : f32) : f32 := Bfma mode_NE x y z.
Definition hv_fma (a b c : Z) : Z :=
  let fused := match t_arch M with Neon7 => false | Neon8 => true | _ => t_fma M end in
  F (if fused then fma32 (V a) (V b) (V c) else fadd (fmul (V a) (V b)) (V c)).
Definition hv_fms (a b c : Z) : Z :=
  F (match t_arch M with
     | Neon8 => fma32 (Bopp (V a)) (V b) (V c)                   (* vfmsq_f32(c, a, b) = c - a * b *)
     | Neon7 | Scalar => fsub (fmul (V a) (V b)) (V c)
     | AVX | SSE => if t_fma M then fma32 (V a) (V b) (Bopp (V c)) else fsub (fmul (V a) (V b)) (V c)
     end).

(** [args]: the lanes at the inlets.  HvMath.h:350-414 (floor, ceil, add, sub, mul) *)
Definition perform (op : sop) (args : list Z) : outcome Z :=
  match op, args with
  | Add, [a; b] => Ok (F (fadd (V a) (V b)))
  | Sub, [a; b] => Ok (F (fsub (V a) (V b)))
  | Mul, [a; b] => Ok (F (fmul (V a) (V b)))
  | Div, [a; b] => Ok (hv_div a b)
  | Min, [a; b] => Ok (hv_min a b)
  | Max, [a; b] => Ok (hv_max a b)
  | Abs, [a] => Ok (hv_abs a)
  | Neg, [a] => Ok (hv_neg a)
  | Floor, [a] => Ok (F (Bnearbyint mode_DN (V a)))
  | Ceil, [a] => Ok (F (Bnearbyint mode_UP (V a)))
  | Sqrt, [a] => Ok (hv_sqrt a)
  | (Gt | Gte | Lt | Lte | Eq | Neq), [a; b] => Ok (hv_compare op a b)
  | And, [a; b] => hv_and a b
  | Or, [a; b] => hv_or a b
  | Andnot, [a; b] => Ok (hv_andnot a b)
  | CastFI, [a] => hv_cast_fi a
  | Log2, [a] => hv_log2 a
  | AddI, [a; b] => Ok (u32 (a + b))                          (* HvMath.h:398-410 *)
  | TabRead t, [a] => hv_tabread t a
  | Math f, [a] => hv_math f a
  | _, _ => UB
  end.

(** ** Signal patches: one item per line of the .pd file, [conns] its "#X connect" lines.
    [SText] also stands for the control objects of the patch.
    [SK op k]: a binary operator whose right inlet is not connected (HLangBinop.py:72-150; [k] is not one of
    the constants that make hvcc drop the object).  A control inlet shows the value last received. *)
Inductive sitem := SText | SIn (x : Z) | SOut (x : Z) | SObj (op : sop) | SK (op : sop) (k : f32) | SSig (k : f32) | SInt (k : Z) | SSub (p : spatch)
with spatch := mkSnd (items : list sitem) (conns : list (nat * nat * nat * nat)).
Definition items (p : spatch) := match p with mkSnd i _ => i end.
Definition conns (p : spatch) := match p with mkSnd _ c => c end.

(** PdGraph.add_object, PdGraph.py:75-92: inlets and outlets are numbered by their x position. *)
Fixpoint rank (x : Z) (l : list Z) : nat := match l with [] => O | y :: l' => (if y <? x then 1 else 0) + rank x l' end.
Definition in_xs (p : spatch) : list Z := flat_map (fun it => match it with SIn x => [x] | _ => [] end) (items p).
Definition out_xs (p : spatch) : list Z := flat_map (fun it => match it with SOut x => [x] | _ => [] end) (items p).
Fixpoint find_out (p : spatch) (l : list sitem) (o k : nat) : option nat :=
  match l with
  | [] => None
  | SOut x :: l' => if Nat.eqb (rank x (out_xs p)) o then Some k else find_out p l' o (S k)
  | _ :: l' => find_out p l' o (S k)
  end.
Definition sources (p : spatch) (n i : nat) : list (nat * nat) :=
  flat_map (fun c => match c with (a, o, b, j) => if Nat.eqb b n && Nat.eqb j i then [(a, o)] else [] end) (conns p).
Definition listeners (p : spatch) (n : nat) : nat :=
  List.length (filter (fun c => match c with (a, _, _, _) => Nat.eqb a n end) (conns p)).
Definition one {A} (l : list A) : bool := match l with [_] => true | _ => false end.
(** HeavyGraph.fma_replacement, HeavyGraph.py:692-740: the product that inlet [i] of [n] receives, if it is
    fused with the sum. *)
Definition product_at (p : spatch) (n i : nat) : option nat :=
  match sources p n i with
  | [(a, O)] =>
      if Nat.eqb (listeners p a) 1 then
        match nth_error (items p) a with
        | Some (SObj Mul) => if one (sources p a 0) && one (sources p a 1) then Some a else None
        | Some (SK Mul _) => if one (sources p a 0) then Some a else None
        | _ => None
        end
      else None
  | _ => None
  end.
Fixpoint collect (l : list (outcome Z)) : outcome (list Z) :=
  match l with [] => Ok [] | a :: l' => let! x := a in let! r := collect l' in Ok (x :: r) end.

(** The lane at outlet [o] of item [n].  More than one connection to an inlet (a sum) is not needed here. *)
Fixpoint value (fuel : nat) (p : spatch) (ins : list Z) (n o : nat) : outcome Z :=
  match fuel with
  | O => UB
  | S f =>
    let inlet n i := match sources p n i with
                     | [] => Ok (F fzero)
                     | [(a, o')] => value f p ins a o'
                     | _ => UB
                     end in
    let args a := match nth_error (items p) a with
                  | Some (SK _ k) => [inlet a 0%nat; Ok (F k)]
                  | _ => [inlet a 0%nat; inlet a 1%nat]
                  end in
    let fused (hv : Z -> Z -> Z -> Z) (a : nat) (c : outcome Z) :=
      let! l := collect (args a ++ [c]) in match l with [x; y; z] => Ok (hv x y z) | _ => UB end in
    let binary op (l : list (outcome Z)) :=
      match op, l with
      | Add, [x; y] =>
          match product_at p n 0, product_at p n 1 with
          | Some a, _ => fused hv_fma a y
          | None, Some a => fused hv_fma a x
          | None, None => let! l := collect l in perform op l
          end
      | Sub, [x; y] =>
          match product_at p n 0 with
          | Some a => fused hv_fms a y
          | None => let! l := collect l in perform op l
          end
      | _, _ => let! l := collect l in perform op l
      end in
    match nth_error (items p) n with
    | Some (SIn x) => match nth_error ins (rank x (in_xs p)) with Some v => Ok v | None => UB end
    | Some (SOut _) => inlet n 0%nat
    | Some (SObj op) =>
        match op with
        | Abs | Neg | Floor | Ceil | Sqrt | CastFI | Log2 | TabRead _ | Math _ => let! a := inlet n 0%nat in perform op [a]
        | _ => binary op [inlet n 0%nat; inlet n 1%nat]
        end
    | Some (SK op k) => binary op [inlet n 0%nat; Ok (F k)]
    | Some (SSig k) => Ok (F k)                                 (* sig~ without a connection: __var_k~f, HLangVar.py *)
    | Some (SInt k) => Ok (u32 k)                               (* __var_k~i *)
    | Some (SSub q) =>
        let! l := collect (map (inlet n) (seq 0 (List.length (in_xs q)))) in
        match find_out q (items q) o 0 with Some m => value f q l m 0 | None => UB end
    | _ => UB
    end
  end.
(** The lane at outlet [o] of the patch, for the lanes [ins] at its inlets. *)
Definition snd_out (p : spatch) (ins : list Z) (o : nat) : outcome Z :=
  match find_out p (items p) o 0 with Some m => value 60 p ins m 0 | None => UB end.
End Ops.

(** ** /repo/hvcc/interpreters/pd2hv/libs/pd/*.pd *)
(** abs~.pd *)
Definition abs_sig : spatch := mkSnd [SObj Abs; SIn 13; SOut 13] [(0,0,2,0); (1,0,0,0)]%nat.
(** clip~.pd *)
Definition clip_sig : spatch := mkSnd
  [SIn 14; SIn 61; SIn 104; SOut 14; SText; SText; SObj Min; SObj Max]
  [(0,0,6,0); (1,0,7,1); (2,0,6,1); (6,0,7,0); (7,0,3,0)]%nat.
(** wrap~.pd *)
Definition wrap_sig : spatch := mkSnd [SIn 29; SObj Floor; SObj Sub; SOut 29] [(0,0,1,0); (0,0,2,0); (1,0,2,1); (2,0,3,0)]%nat.
(** sqrt~.pd *)
Definition sqrt_sig : spatch := mkSnd
  [SObj Sqrt; SIn 30; SOut 30; SObj And; SSig fzero; SObj Gt]
  [(0,0,3,1); (1,0,5,0); (1,0,0,0); (3,0,2,0); (4,0,5,1); (5,0,3,0)]%nat.
(** cos~.pd *)
Definition cos_sig : spatch := mkSnd
  [SK Mul (decimal 628319 5); SIn 32; SOut 31; SK Sub (decimal 25 2); SK Sub (decimal 5 1); SSub abs_sig; SSub wrap_sig; SObj Mul;
   SObj Mul; SObj Mul; SText; SText; SText; SObj Add; SObj Sub; SK Mul (decimal 166667 6); SK Mul (decimal 833333 8); SObj Mul;
   SK Mul (decimal 198413 9); SObj Sub; SObj Mul; SObj Add; SK Mul (decimal 275573 11); SText; SText; SText]
  [(0,0,14,0); (0,0,7,0); (0,0,9,0); (0,0,9,1); (1,0,6,0); (3,0,0,0); (4,0,5,0); (5,0,3,0); (6,0,4,0); (7,0,15,0); (7,0,8,0);
   (8,0,16,0); (8,0,17,0); (9,0,8,1); (9,0,7,1); (9,0,17,1); (9,0,20,1); (13,0,19,0); (14,0,13,0); (15,0,14,1); (16,0,13,1);
   (17,0,18,0); (17,0,20,0); (18,0,19,1); (19,0,21,0); (20,0,22,0); (21,0,2,0); (22,0,21,1)]%nat.
(** osc~.pd; the phasor (item 20) is the inlet of the transcription. *)
Definition osc_sig : spatch := mkSnd
  [SObj Mul; SObj Mul; SObj Mul; SText; SText; SText; SObj Add; SOut 18; SText; SText; SSub abs_sig; SK Sub (decimal 5 1); SText;
   SK Mul (decimal 6283185307179586 15); SK Sub (decimal 25 2); SText; SText; SText; SK Mul (decimal 7833333333333 15); SText;
   SIn 18; SK Mul (decimal (-166666666666667) 15); SObj Add]
  [(0,0,1,0); (0,0,21,0); (1,0,18,0); (2,0,1,1); (2,0,0,1); (6,0,7,0); (10,0,14,0); (11,0,10,0); (13,0,2,0); (13,0,2,1); (13,0,0,0);
   (13,0,22,0); (14,0,13,0); (18,0,6,1); (20,0,11,0); (21,0,22,1); (22,0,6,0)]%nat.
(** ftom~.pd *)
Definition ftom_sig : spatch := mkSnd
  [SOut 14; SIn 14; SObj Log2; SK Mul (of_int 12); SK Mul (decimal 122312205855086 15); SK Max fzero]
  [(1,0,5,0); (2,0,3,0); (3,0,0,0); (4,0,2,0); (5,0,4,0)]%nat.
(** rmstodb~.pd *)
Definition rmstodb_sig : spatch := mkSnd
  [SOut 14; SIn 14; SObj Log2; SK Mul (decimal 6020599913279624 15); SK Max fzero; SK Add (of_int 100); SK Max fzero]
  [(1,0,4,0); (2,0,3,0); (3,0,5,0); (4,0,2,0); (5,0,6,0); (6,0,0,0)]%nat.
(** tabread~.pd for the table [t].  When the patch is loaded its control objects (items 4, 7, 9, 12 to 15) ask for the
    size of the table (cSystem_onMessage, HvControlSystem.c:33-40), subtract 1 and set the right inlet of min~. *)
Definition tabread_sig (t : list f32) : spatch := mkSnd
  [SOut 10; SObj CastFI; SText; SK Max fzero; SText; SK Min (fsub (of_int (zlen t)) fone); SText; SText; SObj (TabRead t); SText;
   SText; SText; SText; SText; SText; SText; SIn 10]
  [(1,0,8,0); (3,0,1,0); (5,0,3,0); (8,0,0,0); (16,0,5,0)]%nat.
(** tabread4~.pd: the same, with the size less 2. *)
Definition tabread4_sig (t : list f32) : spatch := mkSnd
  [SOut 10; SObj Sub; SObj Sub; SObj Mul; SObj Add; SText; SObj CastFI; SObj AddI; SInt 1; SText; SK Max fzero; SText;
   SK Min (fsub (of_int (zlen t)) (of_int 2)); SText; SText; SText; SObj (TabRead t); SObj (TabRead t); SText; SText; SText; SText;
   SText; SText; SObj Floor; SText; SText; SIn 10]
  [(1,0,3,0); (2,0,3,1); (3,0,4,1); (4,0,0,0); (6,0,17,0); (6,0,7,0); (7,0,16,0); (8,0,7,1); (10,0,2,0); (10,0,24,0); (12,0,10,0);
   (16,0,1,0); (17,0,4,0); (17,0,1,1); (24,0,2,1); (24,0,6,0); (27,0,12,0)]%nat.

(** ** lop~.pd without SIMD: the control objects set the right inlet of *~ to the coefficient [k] (hz2rad, then
    "clip 0 1") and that of __rpole~f to [k - 1]; HvSignalRPole.h, HV_SIMD_NONE: y = x - b * y[-1]. *)
Definition lop_step (ym : f32) (k x : f32) : f32 := fsub (fmul x k) (fmul (fsub k fone) ym).
(** [l]: the coefficient in force and the input, sample by sample. *)
Fixpoint lop_run (ym : f32) (l : list (f32 * f32)) : list f32 :=
  match l with [] => [] | (k, x) :: l' => let y := lop_step ym k x in y :: lop_run y l' end.
