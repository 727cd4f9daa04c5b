(** The biquad filters, exact arithmetic (any commutative ring).
    Source: hvcc/generators/ir2c/static/HvSignalBiquad.{h,c}.  The double/float conversions of the
    coefficient computation are identities here; the DEBUG-only stability check (c:134-162) is not
    modelled. *)
From Verif Require Export Simd.

Section Biquad.
Context {R : Type} (r0 : R) (radd rsub rmul : R -> R -> R) (ropp : R -> R).
Notation "a + b" := (radd a b). Notation "a - b" := (rsub a b). Notation "a * b" := (rmul a b).
Notation add4 := (map2_4 radd). Notation mul4 := (map2_4 rmul).
Notation add8 := (map2_8 radd). Notation mul8 := (map2_8 rmul).

(** *** Signal-rate coefficients: SignalBiquad, __hv_biquad_f *)
(** State: previous input block, last two outputs (h:27-36). *)
Record bq V := bq_mk { bq_x : V; bq_ym1 : R; bq_ym2 : R }.
Arguments bq_mk {V}. Arguments bq_x {V}. Arguments bq_ym1 {V}. Arguments bq_ym2 {V}.

(** c:49-79, AVX *)
Definition biquad_avx (o : bq (vec8 R)) (bIn bX0 bX1 bX2 bY1 bY2 : vec8 R) : bq (vec8 R) * vec8 R :=
  let x := permute8 bIn 2 1 0 3 in
  let y := permute8 o.(bq_x) 2 1 0 3 in
  let n := permute2f128 y x 1 2 in                                                    (* 0x21 *)
  let xm1 := blend8 x n true false false false true false false false in             (* 0x11 *)
  let x := permute8 bIn 1 0 3 2 in
  let y := permute8 o.(bq_x) 1 0 3 2 in
  let n := permute2f128 y x 1 2 in
  let xm2 := blend8 x n true true false false true true false false in               (* 0x33 *)
  let a := mul8 bIn bX0 in let b := mul8 xm1 bX1 in let c := mul8 xm2 bX2 in
  let d := add8 a b in let e := add8 c d in
  match e, bY1, bY2 with
  | V8 (V4 e0 e1 e2 e3) (V4 e4 e5 e6 e7), V8 (V4 p0 p1 p2 p3) (V4 p4 p5 p6 p7), V8 (V4 q0 q1 q2 q3) (V4 q4 q5 q6 q7) =>
    let y0 := e0 - o.(bq_ym1) * p0 - o.(bq_ym2) * q0 in
    let y1 := e1 - y0 * p1 - o.(bq_ym1) * q1 in
    let y2 := e2 - y1 * p2 - y0 * q2 in
    let y3 := e3 - y2 * p3 - y1 * q3 in
    let y4 := e4 - y3 * p4 - y2 * q4 in
    let y5 := e5 - y4 * p5 - y3 * q5 in
    let y6 := e6 - y5 * p6 - y4 * q6 in
    let y7 := e7 - y6 * p7 - y5 * q7 in
    (bq_mk bIn y7 y6, V8 (V4 y0 y1 y2 y3) (V4 y4 y5 y6 y7))
  end.
(** The feedback part shared by the SSE (c:95-98) and NEON (c:115-118) branches. *)
Definition feedback4 (ym1 ym2 : R) (e bY1 bY2 : vec4 R) : R * R * vec4 R :=
  match e, bY1, bY2 with
  | V4 e0 e1 e2 e3, V4 p0 p1 p2 p3, V4 q0 q1 q2 q3 =>
    let y0 := e0 - ym1 * p0 - ym2 * q0 in
    let y1 := e1 - y0 * p1 - ym1 * q1 in
    let y2 := e2 - y1 * p2 - y0 * q2 in
    let y3 := e3 - y2 * p3 - y1 * q3 in
    (y3, y2, V4 y0 y1 y2 y3)
  end.
(** c:80-104, SSE *)
Definition biquad_sse (o : bq (vec4 R)) (bIn bX0 bX1 bX2 bY1 bY2 : vec4 R) : bq (vec4 R) * vec4 R :=
  let n := blend o.(bq_x) bIn true true true false in
  let xm1 := shuffle n n 2 1 0 3 in
  let xm2 := shuffle o.(bq_x) bIn 1 0 3 2 in
  let a := mul4 bIn bX0 in let b := mul4 xm1 bX1 in let c := mul4 xm2 bX2 in
  let d := add4 a b in let e := add4 c d in
  let '(y3, y2, out) := feedback4 o.(bq_ym1) o.(bq_ym2) e bY1 bY2 in
  (bq_mk bIn y3 y2, out).
(** c:105-124, NEON *)
Definition biquad_neon (o : bq (vec4 R)) (bIn bX0 bX1 bX2 bY1 bY2 : vec4 R) : bq (vec4 R) * vec4 R :=
  let xm1 := vext o.(bq_x) bIn 3 in
  let xm2 := vext o.(bq_x) bIn 2 in
  let a := mul4 bIn bX0 in let b := mul4 xm1 bX1 in let c := mul4 xm2 bX2 in
  let d := add4 a b in let e := add4 c d in
  let '(y3, y2, out) := feedback4 o.(bq_ym1) o.(bq_ym2) e bY1 bY2 in
  (bq_mk bIn y3 y2, out).
(** c:126-129, scalar: state xm1, xm2, ym1, ym2 *)
Definition biquad_scalar (o : R * R * R * R) (bIn bX0 bX1 bX2 bY1 bY2 : R) : (R * R * R * R) * R :=
  let '(xm1, xm2, ym1, ym2) := o in
  let y := bIn * bX0 + xm1 * bX1 + xm2 * bX2 - ym1 * bY1 - ym2 * bY2 in
  ((bIn, xm1, y, ym1), y).
Fixpoint biquad_run {O V} (step : O -> V -> V -> V -> V -> V -> V -> O * V) (o : O) (l : list (V * V * V * V * V * V)) : list V :=
  match l with [] => [] | (x, k0, k1, k2, k3, k4) :: l' => let (o', y) := step o x k0 k1 k2 k3 k4 in y :: biquad_run step o' l' end.

(** *** Message-rate coefficients: SignalBiquad_k *)
(** h:51-93.  [m_*]: the preprocessed coefficients, lane i for output sample i. *)
Record bqmat := { m_xp3 : vec4 R; m_xp2 : vec4 R; m_xp1 : vec4 R; m_x0 : vec4 R;
                  m_xm1 : vec4 R; m_xm2 : vec4 R; m_ym1 : vec4 R; m_ym2 : vec4 R }.
Record bqk := { k_mat : bqmat; k_xm1 : vec4 R; k_xm2 : vec4 R; k_ym1 : vec4 R; k_ym2 : vec4 R;
                k_b0 : R; k_b1 : R; k_b2 : R; k_a1 : R; k_a2 : R }.
(** c:166-184: the matrix rows and the loop over the columns. *)
Definition column (a1 a2 : R) (c0 c1 c2 c3 : R) : vec4 R :=
  let c1 := c1 + a1 * c0 in
  let c2 := c2 + (a1 * c1 + a2 * c0) in
  let c3 := c3 + (a1 * c2 + a2 * c1) in
  V4 c0 c1 c2 c3.
(** c:133-207, sBiquad_k_updateCoefficients *)
Definition update_coeffs (b0 b1 b2 a1' a2' : R) : bqmat :=
  let a1 := ropp a1' in let a2 := ropp a2' in
  {| m_xp3 := column a1 a2 r0 r0 r0 b0;
     m_xp2 := column a1 a2 r0 r0 b0 b1;
     m_xp1 := column a1 a2 r0 b0 b1 b2;
     m_x0  := column a1 a2 b0 b1 b2 r0;
     m_xm1 := column a1 a2 b1 b2 r0 r0;
     m_xm2 := column a1 a2 b2 r0 r0 r0;
     m_ym1 := column a1 a2 a1 a2 r0 r0;
     m_ym2 := column a1 a2 a2 r0 r0 r0 |}.
(** c:209-236, sBiquad_k_init *)
Definition bqk_init (b0 b1 b2 a1 a2 : R) : bqk :=
  {| k_mat := update_coeffs b0 b1 b2 a1 a2; k_xm1 := set1 r0; k_xm2 := set1 r0; k_ym1 := set1 r0; k_ym2 := set1 r0;
     k_b0 := b0; k_b1 := b1; k_b2 := b2; k_a1 := a1; k_a2 := a2 |}.
(** c:238-250, sBiquad_k_onMessage with a float *)
Definition bqk_message (o : bqk) (letIn : Z) (v : R) : bqk :=
  let set b0 b1 b2 a1 a2 :=
    {| k_mat := update_coeffs b0 b1 b2 a1 a2; k_xm1 := o.(k_xm1); k_xm2 := o.(k_xm2); k_ym1 := o.(k_ym1); k_ym2 := o.(k_ym2);
       k_b0 := b0; k_b1 := b1; k_b2 := b2; k_a1 := a1; k_a2 := a2 |} in
  match letIn with
  | 1 => set v o.(k_b1) o.(k_b2) o.(k_a1) o.(k_a2)
  | 2 => set o.(k_b0) v o.(k_b2) o.(k_a1) o.(k_a2)
  | 3 => set o.(k_b0) o.(k_b1) v o.(k_a1) o.(k_a2)
  | 4 => set o.(k_b0) o.(k_b1) o.(k_b2) v o.(k_a2)
  | 5 => set o.(k_b0) o.(k_b1) o.(k_b2) o.(k_a1) v
  | _ => o
  end.
(** The common sum h:120-136, 148-164, 178-193, 207-221. *)
Definition bqk_sum (k : bqmat) (x3 x2 x1 x0 xm1 xm2 ym1 ym2 : vec4 R) : vec4 R :=
  let a := mul4 k.(m_xp3) x3 in let b := mul4 k.(m_xp2) x2 in
  let c := mul4 k.(m_xp1) x1 in let d := mul4 k.(m_x0) x0 in
  let e := mul4 k.(m_xm1) xm1 in let f := mul4 k.(m_xm2) xm2 in
  let g := mul4 k.(m_ym1) ym1 in let h := mul4 k.(m_ym2) ym2 in
  let i := add4 a b in let j := add4 c d in let k' := add4 e f in let l := add4 g h in
  let m := add4 i j in let n := add4 k' l in add4 m n.
Definition with_state (o : bqk) (xm1 xm2 ym1 ym2 : vec4 R) : bqk :=
  {| k_mat := o.(k_mat); k_xm1 := xm1; k_xm2 := xm2; k_ym1 := ym1; k_ym2 := ym2;
     k_b0 := o.(k_b0); k_b1 := o.(k_b1); k_b2 := o.(k_b2); k_a1 := o.(k_a1); k_a2 := o.(k_a2) |}.
(** h:172-200, SSE *)
Definition bqk_sse (o : bqk) (bIn : vec4 R) : bqk * vec4 R :=
  let x3 := shuffle bIn bIn 3 3 3 3 in let x2 := shuffle bIn bIn 2 2 2 2 in
  let x1 := shuffle bIn bIn 1 1 1 1 in let x0 := shuffle bIn bIn 0 0 0 0 in
  let y := bqk_sum o.(k_mat) x3 x2 x1 x0 o.(k_xm1) o.(k_xm2) o.(k_ym1) o.(k_ym2) in
  (with_state o x3 x2 (shuffle y y 3 3 3 3) (shuffle y y 2 2 2 2), y).
(** h:201-228, NEON *)
Definition bqk_neon (o : bqk) (bIn : vec4 R) : bqk * vec4 R :=
  let x3 := set1 (lane bIn 3) in let x2 := set1 (lane bIn 2) in
  let x1 := set1 (lane bIn 1) in let x0 := set1 (lane bIn 0) in
  let y := bqk_sum o.(k_mat) x3 x2 x1 x0 o.(k_xm1) o.(k_xm2) o.(k_ym1) o.(k_ym2) in
  (with_state o x3 x2 (set1 (lane y 3)) (set1 (lane y 2)), y).
(** h:100-171, AVX: two halves *)
Definition bqk_avx (o : bqk) (bIn : vec8 R) : bqk * vec8 R :=
  match bIn with V8 lo hi =>
    let x3 := set1 (lane lo 3) in let x2 := set1 (lane lo 2) in
    let x1 := set1 (lane lo 1) in let x0 := set1 (lane lo 0) in
    let lo_y := bqk_sum o.(k_mat) x3 x2 x1 x0 o.(k_xm1) o.(k_xm2) o.(k_ym1) o.(k_ym2) in
    let xm1 := x3 in let xm2 := x2 in
    let x3 := set1 (lane hi 3) in let x2 := set1 (lane hi 2) in
    let x1 := set1 (lane hi 1) in let x0 := set1 (lane hi 0) in
    let ym1 := set1 (lane lo_y 3) in let ym2 := set1 (lane lo_y 2) in
    let up_y := bqk_sum o.(k_mat) x3 x2 x1 x0 xm1 xm2 ym1 ym2 in
    (with_state o x3 x2 (set1 (lane up_y 3)) (set1 (lane up_y 2)), V8 lo_y up_y)
  end.
(** h:229-235, scalar *)
Record bqk1 := { s_xm1 : R; s_xm2 : R; s_ym1 : R; s_ym2 : R; s_b0 : R; s_b1 : R; s_b2 : R; s_a1 : R; s_a2 : R }.
Definition bqk1_init (b0 b1 b2 a1 a2 : R) : bqk1 :=
  {| s_xm1 := r0; s_xm2 := r0; s_ym1 := r0; s_ym2 := r0; s_b0 := b0; s_b1 := b1; s_b2 := b2; s_a1 := a1; s_a2 := a2 |}.
Definition bqk1_message (o : bqk1) (letIn : Z) (v : R) : bqk1 :=
  let set b0 b1 b2 a1 a2 := {| s_xm1 := o.(s_xm1); s_xm2 := o.(s_xm2); s_ym1 := o.(s_ym1); s_ym2 := o.(s_ym2);
     s_b0 := b0; s_b1 := b1; s_b2 := b2; s_a1 := a1; s_a2 := a2 |} in
  match letIn with
  | 1 => set v o.(s_b1) o.(s_b2) o.(s_a1) o.(s_a2)
  | 2 => set o.(s_b0) v o.(s_b2) o.(s_a1) o.(s_a2)
  | 3 => set o.(s_b0) o.(s_b1) v o.(s_a1) o.(s_a2)
  | 4 => set o.(s_b0) o.(s_b1) o.(s_b2) v o.(s_a2)
  | 5 => set o.(s_b0) o.(s_b1) o.(s_b2) o.(s_a1) v
  | _ => o
  end.
Definition bqk_scalar (o : bqk1) (bIn : R) : bqk1 * R :=
  let y := o.(s_b0) * bIn + o.(s_b1) * o.(s_xm1) + o.(s_b2) * o.(s_xm2) - o.(s_a1) * o.(s_ym1) - o.(s_a2) * o.(s_ym2) in
  ({| s_xm1 := bIn; s_xm2 := o.(s_xm1); s_ym1 := y; s_ym2 := o.(s_ym1);
      s_b0 := o.(s_b0); s_b1 := o.(s_b1); s_b2 := o.(s_b2); s_a1 := o.(s_a1); s_a2 := o.(s_a2) |}, y).

(** Histories of audio blocks and coefficient messages. *)
Inductive bqk_op V := BBlock (v : V) | BMsg (letIn : Z) (v : R).
Fixpoint bqk_run {O V} (step : O -> V -> O * V) (msg : O -> Z -> R -> O) (o : O) (l : list (bqk_op V)) : list V :=
  match l with
  | [] => []
  | BBlock _ v :: l' => let (o', y) := step o v in y :: bqk_run step msg o' l'
  | BMsg _ i v :: l' => bqk_run step msg (msg o i v) l'
  end.
End Biquad.
Arguments bq_mk {R V}. Arguments bq_x {R V}. Arguments bq_ym1 {R V}. Arguments bq_ym2 {R V}.
Arguments BBlock {R V}. Arguments BMsg {R V}.
