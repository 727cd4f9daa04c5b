(** The phasor~ oscillator (signal-rate and control-rate frequency).
    Source: hvcc/generators/ir2c/static/HvSignalPhasor.{h,c}. *)
From Verif Require Export Float32 Simd.
Local Open Scope Z_scope.

(** ** Reinterpreting 32 bits as a float, and the mantissa field of a float *)
Definition of_bits (u : Z) : f32 :=
  let s := Z.testbit u 31 in
  let e := (u / 8388608) mod 256 in
  let m := u mod 8388608 in
  if e =? 255 then (if m =? 0 then B754_infinity s else B754_nan)
  else
    let x := fdyadic (if e =? 0 then m else m + 8388608) (Z.max e 1 - 150) in
    if s then Bopp x else x.
(** The low 23 bits of the encoding.  The payload of a NaN is taken to be the default quiet NaN. *)
Definition mantissa_bits (x : f32) : Z :=
  match x with
  | B754_finite _ m _ _ => Z.pos m mod 8388608
  | B754_nan => 4194304
  | _ => 0
  end.
Definition one_bits : Z := 1065353216.   (* 0x3F800000 *)

(** HvSignalPhasor.h:89-93 (SSE), 100 (NEON), 103-105 (scalar), 119-122, 125-128, 131-133:
    ((phase >> 9) | 0x3F800000) reinterpreted, minus 1.0f *)
Definition phase_out (p : Z) : f32 := fsub (of_bits (Z.lor (Z.shiftr p 9) one_bits)) fone.
(** HvSignalPhasor.h:74-77, 115-118 (AVX): andnot(-INFINITY, x) | 1.0f *)
Definition wrap12 (x : f32) : f32 := of_bits (Z.lor (mantissa_bits x) one_bits).

(** ** Conversions of the step to an integer *)
(** _mm_cvtps_epi32: nearest even; NaN and out of range give 0x80000000 *)
Definition cvt_sse (x : f32) : Z :=
  if is_finite x then let z := Btrunc (Bnearbyint mode_NE x) in if fits_int z then z else int_min else int_min.
(** vcvtq_s32_f32: truncation, saturating, NaN gives 0 *)
Definition cvt_neon (x : f32) : Z :=
  match x with
  | B754_nan => 0
  | B754_infinity s => if s then int_min else int_max
  | _ => Z.max int_min (Z.min int_max (Btrunc x))
  end.

(** ** Signal-rate frequency, integer phase *)
Record osc4 := { p4_phase : vec4 Z; p4_f2sc : f32 }.
Record osc1 := { p1_phase : Z; p1_f2sc : f32 }.
(** Adding vectors of 32 bit integers; shifting lanes up by k, filling with zero
    (_mm_slli_si128(p, 4k), vextq_s32(0, p, 4-k)). *)
Definition add32 (a b : vec4 Z) : vec4 Z := map2_4 (fun x y => u32 (x + y)) a b.
Definition shift_up (p : vec4 Z) (k : nat) : vec4 Z := vext (set1 0) p (4 - k).
(** HvSignalPhasor.h:84-94 (SSE, [cvt] := cvt_sse), 95-101 (NEON, [cvt] := cvt_neon) *)
Definition osc4_f (cvt : f32 -> Z) (o : osc4) (x : vec4 f32) : osc4 * vec4 f32 :=
  let p := map4 (fun b => u32 (cvt (fmul b o.(p4_f2sc)))) x in
  let p := add32 p (shift_up p 1) in
  let p := add32 p (shift_up p 2) in
  let p := add32 o.(p4_phase) p in
  ({| p4_phase := set1 (lane p 3); p4_f2sc := o.(p4_f2sc) |}, map4 phase_out p).
(** HvSignalPhasor.h:102-107 (scalar) *)
Definition osc1_f (o : osc1) (x : f32) : outcome (osc1 * f32) :=
  let out := phase_out o.(p1_phase) in
  let! d := to_int (fmul x o.(p1_f2sc)) in
  Ok ({| p1_phase := u32 (o.(p1_phase) + d); p1_f2sc := o.(p1_f2sc) |}, out).

(** ** Phase messages: HvSignalPhasor.c:108-122, 133-147.
    [None]: still looping after [fuel] iterations of a loop. *)
Fixpoint wrap_up (fuel : nat) (p : f32) : option f32 :=
  if fltb p fzero then match fuel with O => None | S k => wrap_up k (fadd p fone) end else Some p.
Fixpoint wrap_down (fuel : nat) (p : f32) : option f32 :=
  if fltb fone p then match fuel with O => None | S k => wrap_down k (fsub p fone) end else Some p.
Definition wrap_phase (fuel : nat) (p : f32) : option f32 :=
  match wrap_up fuel p with Some q => wrap_down fuel q | None => None end.
(** (hv_uint32_t) (p * 4294967296.0).  The source multiplies in double; for a float operand the
    product by 2^32 is exact in both formats in the range the loops leave ([0,1] and NaN), so the
    model multiplies in single. *)
Definition two32f : f32 := fdyadic 1 32.
Definition phase_u32 (p : f32) : outcome Z := to_u32 (fmul p two32f).

(** ** Control-rate frequency, integer phase.
    [z]: the exact value of f*(2^32/samplerate) truncated, before conversion to a 32 bit int. *)
Record kosc4 := { k4_phase : vec4 Z; k4_inc : Z; k4_s : Z }.
Record kosc1 := { k1_phase : Z; k1_inc : Z }.
(** Signed 32 bit multiplication k*s: undefined on overflow. *)
Definition smul (k s : Z) : outcome Z := if fits_int (k * s) then Ok (k * s) else UB.
(** HvSignalPhasor.c:48-54, sPhasor_k_updatePhase (SSE, NEON).  p is unsigned: the sums wrap. *)
Definition kosc4_phase (o : kosc4) (p : Z) : outcome kosc4 :=
  let! s3 := smul 3 o.(k4_s) in
  let! s2 := smul 2 o.(k4_s) in
  Ok {| k4_phase := V4 p (u32 (o.(k4_s) + p)) (u32 (s2 + p)) (u32 (s3 + p)); k4_inc := o.(k4_inc); k4_s := o.(k4_s) |}.
(** HvSignalPhasor.c:61-80, sPhasor_k_updateFrequency *)
Definition kosc4_freq (o : kosc4) (z : Z) : outcome kosc4 :=
  guard! (fits_int z) in
  let! s4 := smul 4 z in
  kosc4_phase {| k4_phase := o.(k4_phase); k4_inc := s4; k4_s := z |} (lane o.(k4_phase) 0).
Definition kosc1_freq (o : kosc1) (z : Z) : outcome kosc1 :=
  guard! (fits_int z) in Ok {| k1_phase := o.(k1_phase); k1_inc := z |}.
(** HvSignalPhasor.h:119-128 *)
Definition kosc4_f (o : kosc4) : kosc4 * vec4 f32 :=
  ({| k4_phase := add32 o.(k4_phase) (set1 o.(k4_inc)); k4_inc := o.(k4_inc); k4_s := o.(k4_s) |}, map4 phase_out o.(k4_phase)).
(** HvSignalPhasor.h:129-134 *)
Definition kosc1_f (o : kosc1) : kosc1 * f32 :=
  ({| k1_phase := u32 (o.(k1_phase) + o.(k1_inc)); k1_inc := o.(k1_inc) |}, phase_out o.(k1_phase)).

(** ** AVX: float phase in [1,2) *)
Section Prefix.
(** The shuffles and additions of HvSignalPhasor.h:60-81: prefix sums of eight lanes. *)
Context {A : Type} (add : A -> A -> A) (zero : A).
Definition prefix8 (p : vec8 A) : vec8 A :=
  let z := set1_8 zero in
  let a := permute8 p 2 1 0 3 in
  let b := permute2f128 a a 1 0 in
  let c := blend8 a b false false false false true false false false in
  let d := blend8 c z true false false false false false false false in
  let e := map2_8 add p d in
  let f := permute8 e 1 0 3 2 in
  let g := permute2f128 f f 1 0 in
  let h := blend8 f g true true false false true true false false in
  let i := blend8 h z true true false false false false false false in
  let j := map2_8 add e i in
  let k := permute2f128 j z 2 0 in
  map2_8 add j k.
End Prefix.
Definition map8 {A B} (f : A -> B) (v : vec8 A) : vec8 B := match v with V8 a b => V8 (map4 f a) (map4 f b) end.
Record osc8 := { p8_phase : vec8 f32; p8_f2sc : f32 }.
(** HvSignalPhasor.h:57-83 *)
Definition osc8_f (o : osc8) (x : vec8 f32) : osc8 * vec8 f32 :=
  let p := map8 (fun b => fmul b o.(p8_f2sc)) x in
  let n := map8 wrap12 (map2_8 fadd o.(p8_phase) (prefix8 fadd fzero p)) in
  let out := map8 (fun v => fsub v fone) n in
  let x := permute8 n 3 3 3 3 in
  ({| p8_phase := permute2f128 x x 1 1; p8_f2sc := o.(p8_f2sc) |}, out).
Record kosc8 := { k8_phase : vec8 f32; k8_inc : f32; k8_f2sc : f32 }.
(** HvSignalPhasor.c:36-47, sPhasor_k_updatePhase (AVX).  Sums associate to the left. *)
Definition kosc8_phase (o : kosc8) (p : f32) : kosc8 :=
  let s := o.(k8_f2sc) in
  let at_ (k : Z) := fadd (fadd p fone) (fmul (of_int k) s) in
  {| k8_phase := map8 wrap12 (V8 (V4 (fadd p fone) (fadd (fadd p fone) s) (at_ 2) (at_ 3)) (V4 (at_ 4) (at_ 5) (at_ 6) (at_ 7)));
     k8_inc := o.(k8_inc); k8_f2sc := s |}.
(** HvSignalPhasor.c:62-65.  [s] := (float)(f/r), [inc] := (float)(8f/r). *)
Definition lane0_8 (v : vec8 f32) : f32 := match v with V8 l _ => lane l 0 end.
Definition kosc8_freq (o : kosc8) (s inc : f32) : kosc8 :=
  kosc8_phase {| k8_phase := o.(k8_phase); k8_inc := inc; k8_f2sc := s |} (lane0_8 o.(k8_phase)).
(** HvSignalPhasor.h:113-118 *)
Definition kosc8_f (o : kosc8) : kosc8 * vec8 f32 :=
  ({| k8_phase := map8 wrap12 (map2_8 fadd o.(k8_phase) (set1_8 o.(k8_inc))); k8_inc := o.(k8_inc); k8_f2sc := o.(k8_f2sc) |},
   map8 (fun v => fsub v fone) o.(k8_phase)).

(** ** Histories *)
Inductive osc_op (X : Type) := OBlock (x : X) | OPhase (p : Z).
Arguments OBlock {X}. Arguments OPhase {X}.
(** HvSignalPhasor.c:82-106, sPhasor_init; [f2sc] := (float)(2^32/samplerate). *)
Definition osc4_init (f2sc : f32) : osc4 := {| p4_phase := set1 0; p4_f2sc := f2sc |}.
Definition osc1_init (f2sc : f32) : osc1 := {| p1_phase := 0; p1_f2sc := f2sc |}.
Fixpoint osc4_run (cvt : f32 -> Z) (o : osc4) (ops : list (osc_op (vec4 f32))) : list f32 :=
  match ops with
  | [] => []
  | OBlock x :: ops' => let (o', out) := osc4_f cvt o x in list4 out ++ osc4_run cvt o' ops'
  | OPhase p :: ops' => osc4_run cvt {| p4_phase := set1 p; p4_f2sc := o.(p4_f2sc) |} ops'
  end.
Fixpoint osc1_run (o : osc1) (ops : list (osc_op f32)) : outcome (list f32) :=
  match ops with
  | [] => Ok []
  | OBlock x :: ops' => let! (o', out) := osc1_f o x in let! l := osc1_run o' ops' in Ok (out :: l)
  | OPhase p :: ops' => osc1_run {| p1_phase := p; p1_f2sc := o.(p1_f2sc) |} ops'
  end.
Inductive kosc_op := KBlock | KFreq (z : Z) | KPhase (p : Z).
Definition kosc4_zero : kosc4 := {| k4_phase := set1 0; k4_inc := 0; k4_s := 0 |}.
Definition kosc1_zero : kosc1 := {| k1_phase := 0; k1_inc := 0 |}.
Fixpoint kosc4_run (o : kosc4) (ops : list kosc_op) : outcome (list f32) :=
  match ops with
  | [] => Ok []
  | KBlock :: ops' => let (o', out) := kosc4_f o in let! l := kosc4_run o' ops' in Ok (list4 out ++ l)
  | KFreq z :: ops' => let! o' := kosc4_freq o z in kosc4_run o' ops'
  | KPhase p :: ops' => let! o' := kosc4_phase o p in kosc4_run o' ops'
  end.
Fixpoint kosc1_run (o : kosc1) (ops : list kosc_op) : outcome (list f32) :=
  match ops with
  | [] => Ok []
  | KBlock :: ops' => let (o', out) := kosc1_f o in let! l := kosc1_run o' ops' in Ok (out :: l)
  | KFreq z :: ops' => let! o' := kosc1_freq o z in kosc1_run o' ops'
  | KPhase p :: ops' => kosc1_run {| k1_phase := p; k1_inc := o.(k1_inc) |} ops'
  end.
(** AVX: phase messages carry the wrapped float; HvSignalPhasor.c:21-22 sets p + 1 unmasked. *)
Inductive osc8_op := O8Block (x : vec8 f32) | O8Phase (p : f32).
Definition osc8_init (f2sc : f32) : osc8 := {| p8_phase := set1_8 fone; p8_f2sc := f2sc |}.
Fixpoint osc8_run (o : osc8) (ops : list osc8_op) : list f32 :=
  match ops with
  | [] => []
  | O8Block x :: ops' => let (o', out) := osc8_f o x in list8 out ++ osc8_run o' ops'
  | O8Phase p :: ops' => osc8_run {| p8_phase := set1_8 (fadd p fone); p8_f2sc := o.(p8_f2sc) |} ops'
  end.
Inductive kosc8_op := K8Block | K8Freq (s inc : f32) | K8Phase (p : f32).
(** HvSignalPhasor.c:124-128, sPhasor_k_init: zeroed phase, then a frequency update *)
Definition kosc8_init (s inc : f32) : kosc8 := kosc8_freq {| k8_phase := set1_8 fzero; k8_inc := fzero; k8_f2sc := fzero |} s inc.
Fixpoint kosc8_run (o : kosc8) (ops : list kosc8_op) : list f32 :=
  match ops with
  | [] => []
  | K8Block :: ops' => let (o', out) := kosc8_f o in list8 out ++ kosc8_run o' ops'
  | K8Freq s inc :: ops' => kosc8_run (kosc8_freq o s inc) ops'
  | K8Phase p :: ops' => kosc8_run (kosc8_phase o p) ops'
  end.
