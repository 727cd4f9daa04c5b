(** Model of /repo/hvcc/generators/ir2c/static/HvSignalDel1.{h,c} and HvSignalSamphold.{h,c}. *)
From Verif Require Export Simd.

Section Del1.
Context {A : Type}.
Variable zero : A.

(** __hv_del1_f, HvSignalDel1.h:34-53: state and output of one block. *)
Definition del1_avx (x : vec8 A) (bIn : vec8 A) : vec8 A * vec8 A :=
  let x' := permute8 bIn 2 1 0 3 in
  let n := permute2f128 x x' 1 0 in                                     (* imm 0x1 *)
  (x', blend8 x' n true false false false true false false false).     (* mask 0x11 *)
Definition del1_sse (x bIn : vec4 A) : vec4 A * vec4 A :=
  let n := blend x bIn true true true false in                          (* mask 0x7 *)
  (bIn, shuffle n n 2 1 0 3).
Definition del1_neon (x bIn : vec4 A) : vec4 A * vec4 A := (bIn, vext x bIn 3).
Definition del1_scalar (x bIn : A) : A * A := (bIn, x).

(** A history: audio blocks and "clear" messages (sDel1_onMessage, HvSignalDel1.c:32-46). *)
Inductive del1_op (B : Type) := Block (b : B) | ClearMsg.
Arguments Block {B}. Arguments ClearMsg {B}.
Fixpoint del1_run {B} (step : B -> B -> B * B) (init : B) (x : B) (ops : list (del1_op B)) : list B :=
  match ops with
  | [] => []
  | Block b :: ops' => let (x', out) := step x b in out :: del1_run step init x' ops'
  | ClearMsg :: ops' => del1_run step init init ops'
  end.

(** *** Sample and hold.  Triggers arrive as the lane masks that the comparison objects produce:
    all ones or all zeros, one boolean per lane. *)
(** _mm_movemask_ps / the NEON equivalent. *)
Definition movemask (t : vec4 bool) : nat :=
  match t with V4 a b c d =>
    ((if a then 1 else 0) + (if b then 2 else 0) + (if c then 4 else 0) + (if d then 8 else 0))%nat end.

(** __hv_samphold_f, SSE branch, HvSignalSamphold.h:35-121. *)
Definition samphold_sse (s i : vec4 A) (t : vec4 bool) : vec4 A * vec4 A :=
  let F := false in let T := true in
  let all k := shuffle i i k k k k in
  match movemask t with
  | 1%nat => let o := shuffle i i 0 0 0 0 in (o, o)
  | 2%nat => let x := all 1%nat in (x, blend s x F T T T)
  | 3%nat => let x := all 1%nat in (x, blend i x F F T T)
  | 4%nat => let x := all 2%nat in (x, blend s x F F T T)
  | 5%nat => (all 2%nat, shuffle i i 2 2 0 0)
  | 6%nat => let x := shuffle i i 2 2 1 0 in (all 2%nat, blend s x F T T T)
  | 7%nat => let x := all 2%nat in (x, blend i x F F F T)
  | 8%nat => let x := all 3%nat in (x, blend s x F F F T)
  | 9%nat => (all 3%nat, shuffle i i 3 0 0 0)
  | 10%nat => let x := shuffle i i 3 1 1 0 in (all 3%nat, blend s x F T T T)
  | 11%nat => (all 3%nat, shuffle i i 3 1 1 0)
  | 12%nat => (all 3%nat, blend s i F F T T)
  | 13%nat => (all 3%nat, shuffle i i 3 2 0 0)
  | 14%nat => (all 3%nat, blend s i F T T T)
  | 15%nat => (all 3%nat, i)
  | _ => (s, s)
  end.

(** NEON branch, HvSignalSamphold.h:122-242.  [or (and p m) (and q ~m)] on whole lanes is a blend.
    Each case body maps the held value to (held value, output); the flag says whether it ends in
    [break]: without it control falls through into the next case. *)
Definition samphold_neon_case (k : nat) (s i : vec4 A) : (vec4 A * vec4 A) * bool :=
  let F := false in let T := true in
  let dup j := set1 (lane i j) in
  match k with
  | 1%nat => ((dup 0%nat, dup 0%nat), true)
  | 2%nat => let x := dup 1%nat in ((x, vext s x 3), true)
  | 3%nat => let x := dup 1%nat in ((x, blend i x F T T T), true)
  | 4%nat => let x := dup 2%nat in ((x, vext s x 2), true)
  | 5%nat => let y := dup 2%nat in ((y, blend (dup 0%nat) y F F T T), false)
  | 6%nat => let y := dup 3%nat in let z := blend s i F T T F in ((y, blend z y F F F T), false)
  | 7%nat => let x := dup 2%nat in ((x, blend i x F F T T), true)
  | 8%nat => let x := dup 3%nat in ((x, vext s x 1), true)
  | 9%nat => ((dup 3%nat, blend (dup 0%nat) i F F F T), false)
  | 10%nat => let y := dup 3%nat in let z := blend s (dup 1%nat) F T T F in ((y, blend z y F F F T), false)
  | 11%nat => ((dup 3%nat, blend i (dup 1%nat) F F T F), true)
  | 12%nat => ((dup 3%nat, blend s i F F T T), true)
  | 13%nat => ((dup 3%nat, blend i (dup 0%nat) F T F F), false)
  | 14%nat => ((dup 3%nat, blend s i F T T T), true)
  | 15%nat => ((dup 3%nat, i), true)
  | _ => ((s, s), true)
  end.
Fixpoint neon_switch (fuel k : nat) (s i : vec4 A) : vec4 A * vec4 A :=
  let r := samphold_neon_case k s i in
  match fuel with
  | O => fst r
  | S f => if snd r then fst r else neon_switch f (S k) (fst (fst r)) i
  end.
Definition samphold_neon (s i : vec4 A) (t : vec4 bool) : vec4 A * vec4 A := neon_switch 16 (movemask t) s i.
(** Scalar, HvSignalSamphold.h:243-246. *)
Definition samphold_scalar (s i : A) (t : bool) : A * A := let s' := if t then i else s in (s', s').
(** AVX, HvSignalSamphold.h:33-34: not implemented. *)
Definition samphold_avx (s i : vec8 A) (t : vec8 bool) : outcome (vec8 A * vec8 A) := AssertFail.

(** Blocks and "set" messages (sSamphold_onMessage, HvSignalSamphold.c:31-50). *)
Inductive sh_op (B C : Type) := ShBlock (i : B) (t : C) | ShSet (a : A).
Arguments ShBlock {B C}. Arguments ShSet {B C}.
Fixpoint sh_run {B C} (step : B -> B -> C -> B * B) (dup : A -> B) (s : B) (ops : list (sh_op B C)) : list B :=
  match ops with
  | [] => []
  | ShBlock i t :: ops' => let (s', out) := step s i t in out :: sh_run step dup s' ops'
  | ShSet a :: ops' => sh_run step dup (dup a) ops'
  end.
End Del1.
Arguments Block {B}. Arguments ClearMsg {B}.
Arguments ShBlock {A B C}. Arguments ShSet {A B C}.
