(** The buffer handling of one render call: process(), processInline() and
    processInlineInterleaved() of a generated patch class.
    Source: hvcc/generators/ir2c/templates/Heavy_NAME.cpp:178-397.

    Simplifications.  Buffers are lists of samples; input, output and stack buffers do not overlap.
    Frame counts are non-negative and the int products do not overflow.  Alignment of the vector
    loads and stores is not modelled (the stack buffers come from alloca).  The message part of
    process() (lines 179-187, 212-220) and the signal functions (236-239) are one parameter [kernel]:
    state and one block of each input channel to state and one block of each output channel. *)
From Verif Require Export Base Simd.
Local Open Scope nat_scope.

Inductive build := SSE | AVX | NEON | SCALAR.
(** HvUtils.h:73, 85, 97, 109: HV_N_SIMD. *)
Definition n_simd (b : build) : nat := match b with SSE => 4 | AVX => 8 | NEON => 4 | SCALAR => 1 end.

Section Interleave.
Context {A S : Type}.
Variable kernel : S -> list (list A) -> S * list (list A).

Definition ld (m : list A) (i : nat) : outcome A := match nth_error m i with Some a => Ok a | None => UB end.
Definition st (m : list A) (i : nat) (a : A) : outcome (list A) :=
  if i <? length m then Ok (firstn i m ++ a :: skipn (i + 1) m) else UB.
(** _mm_load_ps, vld1q_f32: four consecutive floats; _mm256_load_ps: eight. *)
Definition ld4 (m : list A) (i : nat) : outcome (vec4 A) :=
  let! a := ld m i in let! b := ld m (i + 1) in let! c := ld m (i + 2) in let! d := ld m (i + 3) in Ok (V4 a b c d).
Definition ld8 (m : list A) (i : nat) : outcome (vec8 A) :=
  let! lo := ld4 m i in let! hi := ld4 m (i + 4) in Ok (V8 lo hi).
Definition st4 (m : list A) (i : nat) (v : vec4 A) : outcome (list A) :=
  match v with V4 a b c d =>
    let! m := st m i a in let! m := st m (i + 1) b in let! m := st m (i + 2) c in st m (i + 3) d end.
Definition st8 (m : list A) (i : nat) (v : vec8 A) : outcome (list A) :=
  match v with V8 lo hi => let! m := st4 m i lo in st4 m (i + 4) hi end.
(** __hv_load_f / __hv_store_f of HV_N_SIMD samples (HvMath.h). *)
Fixpoint ldn (m : list A) (i n : nat) : outcome (list A) :=
  match n with O => Ok [] | Datatypes.S n' => let! a := ld m i in let! r := ldn m (i + 1) n' in Ok (a :: r) end.
Fixpoint stn (m : list A) (i : nat) (l : list A) : outcome (list A) :=
  match l with [] => Ok m | a :: l' => let! m := st m i a in stn m (i + 1) l' end.

(** for (j = 0; j < n; ++j) body *)
Fixpoint foldM {X Y} (f : X -> Y -> outcome Y) (l : list X) (y : Y) : outcome Y :=
  match l with [] => Ok y | x :: l' => let! y' := f x y in foldM f l' y' end.
Definition for_ {Y} (count : nat) (f : nat -> Y -> outcome Y) (y : Y) : outcome Y := foldM f (seq 0 count) y.
(** number of iterations of for (j = 0; j < n; j += step) *)
Definition steps (n step : nat) : nat := (n + step - 1) / step.

(** Heavy_NAME.cpp:178-250.  [ibase]/[obase]: where channel i starts, in the memory it lives in.
    n4 = n & ~MASK.  Loads: 222-227; stores: 242-247. *)
Definition ldall (N C : nat) (ibase : nat -> nat) (imem : list A) (n : nat) : outcome (list (list A)) :=
  foldM (fun c acc => let! b := ldn imem (ibase c + n) N in Ok (acc ++ [b])) (seq 0 C) [].
Definition stall (N D : nat) (obase : nat -> nat) (n : nat) (o : list (list A)) (omem : list A) : outcome (list A) :=
  foldM (fun c m => stn m (obase c + n) (nth c o [])) (seq 0 D) omem.
Definition process (N C D : nat) (ibase obase : nat -> nat) (imem : list A) (s : S) (omem : list A) (n : nat)
  : outcome (S * list A) :=
  for_ (n / N) (fun k '(s, omem) =>
    let! ins := ldall N C ibase imem (k * N) in
    let '(s', outs) := kernel s ins in
    let! omem' := stall N D obase (k * N) outs omem in
    Ok (s', omem')) (s, omem).

(** Heavy_NAME.cpp:269-298 *)
Definition processInline (bd : build) (C D : nat) (imem : list A) (s : S) (omem : list A) (n4 : nat) : outcome (S * list A) :=
  assert! (n4 mod n_simd bd =? 0) in
  process (n_simd bd) C D (fun i => i * n4) (fun i => i * n4) imem s omem n4.

(** Heavy_NAME.cpp:309-318 (SSE and AVX builds), 320-324 (NEON), 325-331 and 334-340 (scalar). *)
Definition deint_sse (inp : list A) (n4 : nat) (bIn : list A) : outcome (list A) :=
  for_ (steps n4 4) (fun k bIn =>
    let i := 8 * k in let j := 4 * k in
    let! a := ld4 inp i in let! b := ld4 inp (4 + i) in
    let x := shuffle a b 2 0 2 0 in let y := shuffle a b 3 1 3 1 in
    let! bIn := st4 bIn j x in st4 bIn (n4 + j) y) bIn.
(** vld2q_f32: eight floats, even ones and odd ones. *)
Definition vld2q (m : list A) (i : nat) : outcome (vec4 A * vec4 A) :=
  let! v := ld8 m i in
  match v with V8 (V4 a b c d) (V4 e f g h) => Ok (V4 a c e g, V4 b d f h) end.
Definition deint_neon (inp : list A) (n4 : nat) (bIn : list A) : outcome (list A) :=
  for_ (steps n4 4) (fun k bIn =>
    let i := 8 * k in let j := 4 * k in
    let! (x, y) := vld2q inp i in
    let! bIn := st4 bIn j x in st4 bIn (n4 + j) y) bIn.
Definition deint_scalar (C : nat) (inp : list A) (n4 : nat) (bIn : list A) : outcome (list A) :=
  for_ n4 (fun j bIn => for_ C (fun i bIn =>
    let! a := ld inp (i + C * j) in st bIn (i * n4 + j) a) bIn) bIn.
(** Heavy_NAME.cpp:303-341.  [junk]: the uninitialised contents of the stack buffer. *)
Definition uninterleave (bd : build) (C : nat) (inp junk : list A) (n4 : nat) : outcome (list A) :=
  match C with
  | 0 => Ok []
  | 1 => Ok inp
  | 2 => match bd with
         | SSE | AVX => deint_sse inp n4 (firstn (2 * n4) junk)
         | NEON => deint_neon inp n4 (firstn (2 * n4) junk)
         | SCALAR => deint_scalar 2 inp n4 (firstn (2 * n4) junk)
         end
  | _ => deint_scalar C inp n4 (firstn (C * n4) junk)
  end.

(** Heavy_NAME.cpp:356-365 (AVX), 366-374 (SSE), 376-382 (NEON), 383-389 and 391-396 (scalar). *)
Definition int_avx (bOut : list A) (n4 : nat) (out : list A) : outcome (list A) :=
  for_ (steps n4 8) (fun k out =>
    let i := 16 * k in let j := 8 * k in
    let! x := ld8 bOut j in let! y := ld8 bOut (n4 + j) in
    let a := unpacklo8 x y in let b := unpackhi8 x y in
    let! out := st8 out i a in st8 out (8 + i) b) out.
Definition int_sse (bOut : list A) (n4 : nat) (out : list A) : outcome (list A) :=
  for_ (steps n4 4) (fun k out =>
    let i := 8 * k in let j := 4 * k in
    let! x := ld4 bOut j in let! y := ld4 bOut (n4 + j) in
    let a := unpacklo x y in let b := unpackhi x y in
    let! out := st4 out i a in st4 out (4 + i) b) out.
(** vst2q_f32: store two vectors interleaved. *)
Definition vst2q (m : list A) (i : nat) (x y : vec4 A) : outcome (list A) :=
  match x, y with V4 a c e g, V4 b d f h => st8 m i (V8 (V4 a b c d) (V4 e f g h)) end.
Definition int_neon (bOut : list A) (n4 : nat) (out : list A) : outcome (list A) :=
  for_ (steps n4 4) (fun k out =>
    let i := 8 * k in let j := 4 * k in
    let! x := ld4 bOut j in let! y := ld4 bOut (n4 + j) in
    vst2q out i x y) out.
Definition int_scalar (D : nat) (bOut : list A) (n4 : nat) (out : list A) : outcome (list A) :=
  for_ D (fun i out => for_ n4 (fun j out =>
    let! a := ld bOut (i * n4 + j) in st out (i + D * j) a) out) out.
Definition interleave (bd : build) (D : nat) (bOut : list A) (n4 : nat) (out : list A) : outcome (list A) :=
  match D with
  | 2 => match bd with
         | AVX => int_avx bOut n4 out
         | SSE => int_sse bOut n4 out
         | NEON => int_neon bOut n4 out
         | SCALAR => int_scalar 2 bOut n4 out
         end
  | _ => int_scalar D bOut n4 out
  end.

(** Heavy_NAME.cpp:300-400.  n4 & ~MASK is non-zero exactly when n4 >= HV_N_SIMD.
    [junk1], [junk2]: uninitialised stack memory for bIn and bOut. *)
Definition processInlineInterleaved (bd : build) (C D : nat) (inp : list A) (s : S) (out junk1 junk2 : list A) (n4 : nat)
  : outcome (S * list A) :=
  assert! (negb (n4 / n_simd bd * n_simd bd =? 0)) in
  let! bIn := uninterleave bd C inp junk1 n4 in
  match D with
  | 0 => let! (s', _) := processInline bd C D bIn s [] n4 in Ok (s', out)
  | 1 => processInline bd C D bIn s out n4
  | _ => let! (s', bOut) := processInline bd C D bIn s (firstn (D * n4) junk2) n4 in
         let! out' := interleave bd D bOut n4 out in Ok (s', out')
  end.
End Interleave.
