(** The line~ object in exact arithmetic (the real numbers).
    Source: hvcc/generators/ir2c/static/HvSignalLine.{h,c}.
    The sample counter is a 32 bit integer: vector builds wrap, in the scalar build overflow is
    undefined.  The ramp time arrives here in samples ((int) hv_millisecondsToSamples). *)
From Verif Require Export Simd.
From Coq Require Export Reals.
Local Open Scope Z_scope.

Definition s32 (x : Z) : Z := (x + 2147483648) mod 4294967296 - 2147483648.

(** HvSignalLine.h:25-35 *)
Record line4 := { l4_n : vec4 Z; l4_x : vec4 R; l4_m : vec4 R; l4_t : vec4 R }.
Record line8 := { l8_n : vec4 Z; l8_x : vec8 R; l8_m : vec8 R; l8_t : vec8 R }.
Record line1 := { l1_n : Z; l1_x : R; l1_m : R; l1_t : R }.

(** HvSignalLine.c:19-42, sLine_init *)
Definition line4_init : line4 := {| l4_n := set1 0; l4_x := set1 0%R; l4_m := set1 0%R; l4_t := set1 0%R |}.
Definition line8_init : line8 := {| l8_n := set1 0; l8_x := set1_8 0%R; l8_m := set1_8 0%R; l8_t := set1_8 0%R |}.
Definition line1_init : line1 := {| l1_n := 0; l1_x := 0%R; l1_m := 0%R; l1_t := 0%R |}.

Definition neg4 (n : vec4 Z) : vec4 bool := map4 (fun z => z <? 0) n.
Definition sub4 (n : vec4 Z) : vec4 Z := map4 (fun z => s32 (z - 4)) n.
(** (mask & t) | (~mask & x), per lane *)
Definition select4 (mask : vec4 bool) (t x : vec4 R) : vec4 R :=
  match mask with V4 a b c d => blend x t a b c d end.
(** HvSignalLine.h:53-64 (SSE), 65-73 (NEON) *)
Definition line4_f (o : line4) : line4 * vec4 R :=
  let n := o.(l4_n) in
  let mask := neg4 n in
  let out := select4 mask o.(l4_t) o.(l4_x) in
  ({| l4_n := sub4 n; l4_x := map2_4 Rplus o.(l4_x) o.(l4_m); l4_m := o.(l4_m); l4_t := o.(l4_t) |}, out).
(** HvSignalLine.h:40-52 (AVX) *)
Definition line8_f (o : line8) : line8 * vec8 R :=
  let n := o.(l8_n) in
  let masklo := neg4 n in
  let n := sub4 n in
  let maskhi := neg4 n in
  let n' := sub4 n in
  let out := match o.(l8_t), o.(l8_x) with V8 tl th, V8 xl xh => V8 (select4 masklo tl xl) (select4 maskhi th xh) end in
  ({| l8_n := n'; l8_x := map2_8 Rplus o.(l8_x) o.(l8_m); l8_m := o.(l8_m); l8_t := o.(l8_t) |}, out).
(** HvSignalLine.h:74-77 (scalar): signed overflow of the counter is undefined *)
Definition line1_f (o : line1) : outcome (line1 * R) :=
  let out := if o.(l1_n) <? 0 then o.(l1_t) else o.(l1_x) in
  guard! (-2147483648 <=? o.(l1_n) - 1) in
  Ok ({| l1_n := o.(l1_n) - 1; l1_x := Rplus o.(l1_x) o.(l1_m); l1_m := o.(l1_m); l1_t := o.(l1_t) |}, out).

Inductive line_msg := MRamp (target : R) (n : Z) | MJump (v : R) | MStop.

(** HvSignalLine.c:44-140, sLine_onMessage, SSE and NEON.  The "current value". *)
Definition cur4 (o : line4) : R :=
  if 0 <? lane o.(l4_n) 3 then Rplus (lane o.(l4_x) 3) (Rdiv (lane o.(l4_m) 3) (IZR 4)) else lane o.(l4_t) 3.
Definition line4_message (o : line4) (m : line_msg) : line4 :=
  match m with
  | MRamp t n =>
      let x := cur4 o in
      let s := Rdiv (Rminus t x) (IZR n) in
      {| l4_n := V4 n (s32 (n - 1)) (s32 (n - 2)) (s32 (n - 3));
         l4_x := V4 x (Rplus x s) (Rplus x (Rmult (IZR 2) s)) (Rplus x (Rmult (IZR 3) s));
         l4_m := set1 (Rmult (IZR 4) s); l4_t := set1 t |}
  | MJump v => {| l4_n := set1 0; l4_x := set1 v; l4_m := set1 0%R; l4_t := set1 v |}
  | MStop => let x := cur4 o in {| l4_n := set1 0; l4_x := set1 x; l4_m := set1 0%R; l4_t := set1 x |}
  end.
(** AVX: o->n[1] is a 64 bit integer, lanes 2 (low) and 3 (high). *)
Definition n1_positive (n : vec4 Z) : bool := 0 <? lane n 3 * 4294967296 + (lane n 2) mod 4294967296.
Definition lane7 (v : vec8 R) : R := match v with V8 _ h => lane h 3 end.
Definition cur8 (o : line8) : R :=
  if n1_positive o.(l8_n) then Rplus (lane7 o.(l8_x)) (Rdiv (lane7 o.(l8_m)) (IZR 8)) else lane7 o.(l8_t).
Definition line8_message (o : line8) (m : line_msg) : line8 :=
  match m with
  | MRamp t n =>
      let x := cur8 o in
      let s := Rdiv (Rminus t x) (IZR n) in
      let k i := Rplus x (Rmult (IZR i) s) in
      {| l8_n := V4 n (s32 (n - 1)) (s32 (n - 2)) (s32 (n - 3));
         l8_x := V8 (V4 x (Rplus x s) (k 2) (k 3)) (V4 (k 4) (k 5) (k 6) (k 7));
         l8_m := set1_8 (Rmult (IZR 8) s); l8_t := set1_8 t |}
  | MJump v => {| l8_n := set1 0; l8_x := set1_8 v; l8_m := set1_8 0%R; l8_t := set1_8 v |}
  | MStop => let x := cur8 o in {| l8_n := set1 0; l8_x := set1_8 x; l8_m := set1_8 0%R; l8_t := set1_8 x |}
  end.
Definition cur1 (o : line1) : R := if 0 <? o.(l1_n) then Rplus o.(l1_x) o.(l1_m) else o.(l1_t).
Definition line1_message (o : line1) (m : line_msg) : line1 :=
  match m with
  | MRamp t n => let x := cur1 o in {| l1_n := n; l1_x := x; l1_m := Rdiv (Rminus t x) (IZR n); l1_t := t |}
  | MJump v => {| l1_n := 0; l1_x := v; l1_m := 0%R; l1_t := v |}
  | MStop => let x := cur1 o in {| l1_n := 0; l1_x := x; l1_m := 0%R; l1_t := x |}
  end.

(** A history: [LBlock] renders one block, [LMsg] delivers a message. *)
Inductive line_op := LBlock | LMsg (m : line_msg).
Fixpoint line4_run (o : line4) (ops : list line_op) : list R :=
  match ops with
  | [] => []
  | LBlock :: ops' => let (o', out) := line4_f o in list4 out ++ line4_run o' ops'
  | LMsg m :: ops' => line4_run (line4_message o m) ops'
  end.
Fixpoint line8_run (o : line8) (ops : list line_op) : list R :=
  match ops with
  | [] => []
  | LBlock :: ops' => let (o', out) := line8_f o in list8 out ++ line8_run o' ops'
  | LMsg m :: ops' => line8_run (line8_message o m) ops'
  end.
Fixpoint line1_run (o : line1) (ops : list line_op) : outcome (list R) :=
  match ops with
  | [] => Ok []
  | LBlock :: ops' => let! (o', out) := line1_f o in let! l := line1_run o' ops' in Ok (out :: l)
  | LMsg m :: ops' => line1_run (line1_message o m) ops'
  end.
