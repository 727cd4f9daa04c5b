(** C28, first part: real and complex pole. *)
From Verif Require Import PoleModel PoleSpec.
From Coq Require Import Ring.

Section P.
Context {R : Type} (r0 r1 : R) (radd rmul rsub : R -> R -> R) (ropp : R -> R).
Hypothesis Rth : ring_theory r0 r1 radd rmul rsub ropp (@eq R).
Add Ring Rr : Rth.
Notation "a + b" := (radd a b). Notation "a - b" := (rsub a b). Notation "a * b" := (rmul a b).

Notation add4 := (map2_4 radd). Notation sub4 := (map2_4 rsub). Notation mul4 := (map2_4 rmul).
Notation add8 := (map2_8 radd). Notation sub8 := (map2_8 rsub). Notation mul8 := (map2_8 rmul).

(** What is used of the one-sample delay. *)
Definition del1_ok4 (del1 : vec4 R -> vec4 R -> vec4 R * vec4 R) := forall s a b c d,
  lane (fst (del1 s (V4 a b c d))) 3 = d /\ snd (del1 s (V4 a b c d)) = V4 (lane s 3) a b c.
Lemma sse_ok4 : del1_ok4 del1_sse.
Proof. intros s a b c d. destruct s. split; reflexivity. Qed.
Lemma neon_ok4 : del1_ok4 del1_neon.
Proof. intros s a b c d. destruct s. split; reflexivity. Qed.

Section Del.
Variable del1 : vec4 R -> vec4 R -> vec4 R * vec4 R.
Hypothesis D : del1_ok4 del1.
Ltac del :=
  repeat match goal with |- context [del1 ?s (V4 ?a ?b ?c ?d)] =>
    let s' := fresh "s" in let o := fresh "o" in let E := fresh "Ed" in let H1 := fresh "L" in let H2 := fresh "O" in
    pose proof (D s a b c d) as [H1 H2]; destruct (del1 s (V4 a b c d)) as [s' o] eqn:E; cbn [fst snd] in H1, H2; subst o; cbn [map2_4] end.

Inductive rp_inv : rpole4 (vec4 R) -> R -> Prop :=
| rp_inv_i o x1 x2 x3 a1 a2 a3 y4 y3 y2 y1 :
    lane (r4_i8Twk o) 3 = a1 -> lane (r4_KYibU o) 3 = a2 -> lane (r4_spa5V o) 3 = a3 ->
    lane (r4_3HXdb o) 3 = x1 -> lane (r4_Aj1oK o) 3 = x2 -> lane (r4_jNX1g o) 3 = x3 ->
    r4_ym o = V4 y4 y3 y2 y1 -> y3 = x3 - a3 * y4 -> y2 = x2 - a2 * y3 -> y1 = x1 - a1 * y2 -> rp_inv o y1.

Lemma rp_step o y x a : rp_inv o y -> let '(o', out) := rpole4_f add4 sub4 mul4 del1 o x a in
  exists y', rp_inv o' y' /\ forall l, one_pole rsub rmul y (combine (list4 x) (list4 a) ++ l) = list4 out ++ one_pole rsub rmul y' l.
Proof.
  intro I. destruct x as [p0 p1 p2 p3], a as [q0 q1 q2 q3]. destruct I as [o x1 x2 x3 a1 a2 a3 y4 y3 y2 y1 E1 E2 E3 E4 E5 E6 E7 E8 E9 E10].
  unfold rpole4_f. rewrite E7. del. rewrite E1, E2, E3, E4, E5, E6 in *.
  eexists. split.
  - eapply rp_inv_i; cbn; try eassumption; try reflexivity; subst; ring.
  - intro l. cbn. repeat match goal with |- ?a :: _ = ?b :: _ => replace a with b by (subst; ring); f_equal end.
Qed.
Lemma rp_run blocks : forall o y, rp_inv o y ->
  concat (map list4 (rpole_run (rpole4_f add4 sub4 mul4 del1) o blocks)) =
  one_pole rsub rmul y (flat_map (fun '(x, a) => combine (list4 x) (list4 a)) blocks).
Proof.
  induction blocks as [|[x a] blocks IH]; intros o y I; [reflexivity|].
  cbn [rpole_run flat_map]. pose proof (rp_step o y x a I) as S.
  destruct (rpole4_f add4 sub4 mul4 del1 o x a) as [o' out]. destruct S as (y' & I' & E).
  rewrite E. cbn [map concat]. f_equal. apply IH; auto.
Qed.
Lemma rp_init : rp_inv (rpole4_init (set1 r0)) r0.
Proof. eapply (rp_inv_i _ r0 r0 r0 r0 r0 r0 r0 r0 r0 r0); cbn; try reflexivity; ring. Qed.

(** Complex pole.  a/x/y with r: real parts, with i: imaginary parts. *)
Inductive cp_inv : cpole4 (vec4 R) -> R * R -> Prop :=
| cp_inv_i o xr1 xi1 xr2 xi2 xr3 xi3 ar1 ai1 ar2 ai2 ar3 ai3 yr4 yi4 yr3 yi3 yr2 yi2 yr1 yi1 :
    lane (c4_j0EQa o) 3 = xr1 -> lane (c4_4REN6 o) 3 = xi1 -> lane (c4_5z88r o) 3 = xr2 -> lane (c4_CxDdp o) 3 = xi2 ->
    lane (c4_8zCWF o) 3 = ar1 -> lane (c4_1A4op o) 3 = ai1 -> lane (c4_ldSdM o) 3 = xr3 -> lane (c4_sOZ64 o) 3 = xi3 ->
    lane (c4_mpbqn o) 3 = ar2 -> lane (c4_sBC7F o) 3 = ai2 -> lane (c4_bZG8k o) 3 = ar3 -> lane (c4_Wtjof o) 3 = ai3 ->
    c4_ymr o = V4 yr4 yr3 yr2 yr1 -> c4_ymi o = V4 yi4 yi3 yi2 yi1 ->
    yr3 = xr3 - (ar3 * yr4 - ai3 * yi4) -> yi3 = xi3 - (ar3 * yi4 + ai3 * yr4) ->
    yr2 = xr2 - (ar2 * yr3 - ai2 * yi3) -> yi2 = xi2 - (ar2 * yi3 + ai2 * yr3) ->
    yr1 = xr1 - (ar1 * yr2 - ai1 * yi2) -> yi1 = xi1 - (ar1 * yi2 + ai1 * yr2) -> cp_inv o (yr1, yi1).
Lemma cp_step o y xr xi ar ai : cp_inv o y -> let '(o', (outr, outi)) := cpole4_f add4 sub4 mul4 del1 o xr xi ar ai in
  exists y', cp_inv o' y' /\ forall l,
    complex_one_pole radd rsub rmul y (combine (combine (list4 xr) (list4 xi)) (combine (list4 ar) (list4 ai)) ++ l) =
    combine (list4 outr) (list4 outi) ++ complex_one_pole radd rsub rmul y' l.
Proof.
  intro I. destruct xr as [p0 p1 p2 p3], xi as [u0 u1 u2 u3], ar as [q0 q1 q2 q3], ai as [w0 w1 w2 w3].
  destruct I as [o xr1 xi1 xr2 xi2 xr3 xi3 ar1 ai1 ar2 ai2 ar3 ai3 yr4 yi4 yr3 yi3 yr2 yi2 yr1 yi1
     E1 E2 E3 E4 E5 E6 E7 E8 E9 E10 E11 E12 Er Ei F1 F2 F3 F4 F5 F6].
  unfold cpole4_f. rewrite Er, Ei. del. rewrite E1, E2, E3, E4, E5, E6, E7, E8, E9, E10, E11, E12 in *.
  eexists (_, _). split.
  - eapply cp_inv_i; cbn; try eassumption; try reflexivity; subst; ring.
  - intro l. cbn. unfold csub, cmul; cbn [fst snd].
    repeat match goal with |- ?a :: _ = ?b :: _ => replace a with b by (subst; f_equal; ring); f_equal end.
Qed.
Lemma cp_run blocks : forall o y, cp_inv o y ->
  flat_map (fun '(r, i) => combine (list4 r) (list4 i)) (cpole_run (cpole4_f add4 sub4 mul4 del1) o blocks) =
  complex_one_pole radd rsub rmul y (flat_map (fun '(xr, xi, ar, ai) => combine (combine (list4 xr) (list4 xi)) (combine (list4 ar) (list4 ai))) blocks).
Proof.
  induction blocks as [|[[[xr xi] ar] ai] blocks IH]; intros o y I; [reflexivity|].
  cbn [cpole_run flat_map]. pose proof (cp_step o y xr xi ar ai I) as S.
  destruct (cpole4_f add4 sub4 mul4 del1 o xr xi ar ai) as [o' [outr outi]]. destruct S as (y' & I' & E).
  rewrite E. cbn [flat_map]. f_equal. apply IH; auto.
Qed.
Lemma cp_init : cp_inv (cpole4_init (set1 r0)) (r0, r0).
Proof. eapply (cp_inv_i _ r0 r0 r0 r0 r0 r0 r0 r0 r0 r0 r0 r0 r0 r0 r0 r0 r0 r0 r0 r0); cbn; try reflexivity; ring. Qed.
End Del.

(** AVX real pole, given a delay that works. *)
Section Del8.
Variable del1 : vec8 R -> vec8 R -> vec8 R * vec8 R.
Variable last : vec8 R -> R.
Hypothesis D : forall s a b c d e f g h, last (fst (del1 s (V8 (V4 a b c d) (V4 e f g h)))) = h /\
  snd (del1 s (V8 (V4 a b c d) (V4 e f g h))) = V8 (V4 (last s) a b c) (V4 d e f g).
Ltac del :=
  repeat match goal with |- context [del1 ?s (V8 (V4 ?a ?b ?c ?d) (V4 ?e ?f ?g ?h))] =>
    let s' := fresh "s" in let o := fresh "o" in let E := fresh "Ed" in let H1 := fresh "L" in let H2 := fresh "O" in
    pose proof (D s a b c d e f g h) as [H1 H2]; destruct (del1 s (V8 (V4 a b c d) (V4 e f g h))) as [s' o] eqn:E; cbn [fst snd] in H1, H2; subst o; cbn [map2_8 map2_4] end.
Inductive rp8_inv : rpole8 (vec8 R) -> R -> Prop :=
| rp8_inv_i o x1 x2 x3 x4 x5 x6 x7 a1 a2 a3 a4 a5 a6 a7 y8 y7 y6 y5 y4 y3 y2 y1 :
    last (r8_fxiLN o) = a1 -> last (r8_kjkpV o) = a2 -> last (r8_dkIWc o) = a3 -> last (r8_bVeoW o) = a4 ->
    last (r8_PulZn o) = a5 -> last (r8_yTFig o) = a6 -> last (r8_Is9Qf o) = a7 ->
    last (r8_LIyNt o) = x1 -> last (r8_VqpU3 o) = x2 -> last (r8_ZVYeg o) = x3 -> last (r8_IVAZh o) = x4 ->
    last (r8_F8WrY o) = x5 -> last (r8_rkFMy o) = x6 -> last (r8_BeqSK o) = x7 ->
    r8_ym o = V8 (V4 y8 y7 y6 y5) (V4 y4 y3 y2 y1) -> 
    y7 = x7 - a7 * y8 -> y6 = x6 - a6 * y7 -> y5 = x5 - a5 * y6 -> y4 = x4 - a4 * y5 ->
    y3 = x3 - a3 * y4 -> y2 = x2 - a2 * y3 -> y1 = x1 - a1 * y2 -> rp8_inv o y1.
Lemma rp8_step o y x a : rp8_inv o y -> let '(o', out) := rpole8_f add8 sub8 mul8 del1 o x a in
  exists y', rp8_inv o' y' /\ forall l, one_pole rsub rmul y (combine (list8 x) (list8 a) ++ l) = list8 out ++ one_pole rsub rmul y' l.
Proof.
  intro I. destruct x as [[p0 p1 p2 p3] [p4 p5 p6 p7]], a as [[q0 q1 q2 q3] [q4 q5 q6 q7]].
  destruct I as [o x1 x2 x3 x4 x5 x6 x7 a1 a2 a3 a4 a5 a6 a7 y8 y7 y6 y5 y4 y3 y2 y1 E1 E2 E3 E4 E5 E6 E7 E8 E9 E10 E11 E12 E13 E14 Ey
    F1 F2 F3 F4 F5 F6 F7].
  unfold rpole8_f. rewrite Ey. del. rewrite E1, E2, E3, E4, E5, E6, E7, E8, E9, E10, E11, E12, E13, E14 in *.
  eexists. split.
  - eapply rp8_inv_i; cbn; try eassumption; try reflexivity; subst; ring.
  - intro l. cbn. repeat match goal with |- ?a :: _ = ?b :: _ => replace a with b by (subst; ring); f_equal end.
Qed.
Lemma rp8_run blocks : forall o y, rp8_inv o y ->
  concat (map list8 (rpole_run (rpole8_f add8 sub8 mul8 del1) o blocks)) =
  one_pole rsub rmul y (flat_map (fun '(x, a) => combine (list8 x) (list8 a)) blocks).
Proof.
  induction blocks as [|[x a] blocks IH]; intros o y I; [reflexivity|].
  cbn [rpole_run flat_map]. pose proof (rp8_step o y x a I) as S.
  destruct (rpole8_f add8 sub8 mul8 del1 o x a) as [o' out]. destruct S as (y' & I' & E).
  rewrite E. cbn [map concat]. f_equal. apply IH; auto.
Qed.
Lemma rp8_init0 z : z = set1_8 r0 -> last z = r0 -> rp8_inv (rpole8_init z) r0.
Proof.
  intros Z L.
  eapply (rp8_inv_i _ r0 r0 r0 r0 r0 r0 r0 r0 r0 r0 r0 r0 r0 r0 r0 r0 r0 r0 r0 r0 r0 r0); unfold rpole8_init;
   cbn [r8_fxiLN r8_kjkpV r8_dkIWc r8_bVeoW r8_PulZn r8_yTFig r8_Is9Qf r8_LIyNt r8_VqpU3 r8_ZVYeg r8_IVAZh r8_F8WrY r8_rkFMy r8_BeqSK r8_ym];
   try exact L; try exact Z; ring.
Qed.
End Del8.
End P.

(** ** C28, real pole.  For every commutative ring and every history of blocks with time-varying
    coefficient, the output stream of the SSE and NEON kernels is y[n] = x[n] - a[n] y[n-1]. *)
Theorem rpole_vector_correct : forall (R : Type) (r0 r1 : R) radd rmul rsub ropp,
  ring_theory r0 r1 radd rmul rsub ropp (@eq R) -> forall (neon : bool) (blocks : list (vec4 R * vec4 R)),
  let del1 := if neon then del1_neon else del1_sse in
  concat (map list4 (rpole_run (rpole4_f (map2_4 radd) (map2_4 rsub) (map2_4 rmul) del1) (rpole4_init (set1 r0)) blocks)) =
  one_pole rsub rmul r0 (flat_map (fun '(x, a) => combine (list4 x) (list4 a)) blocks).
Proof.
  intros. eapply (rp_run r0 r1 radd rmul rsub ropp H).
  - unfold del1. destruct neon; [apply neon_ok4 | apply sse_ok4].
  - apply (rp_init r0 r1 radd rmul rsub ropp H).
Qed.
Theorem rpole_scalar_correct : forall (R : Type) (r0 : R) rsub rmul (blocks : list (R * R)),
  rpole_run (rpole1_f rsub rmul) r0 blocks = one_pole rsub rmul r0 blocks.
Proof.
  intros. assert (G : forall y, rpole_run (rpole1_f rsub rmul) y blocks = one_pole rsub rmul y blocks); [|apply G].
  induction blocks as [|[x a] l IH]; intro y; [reflexivity|]. cbn. rewrite IH. reflexivity.
Qed.
(** AVX: the kernel is right given a working one-sample delay ... *)
Theorem rpole_avx_partial : forall (R : Type) (r0 r1 : R) radd rmul rsub ropp,
  ring_theory r0 r1 radd rmul rsub ropp (@eq R) -> forall (del1 : vec8 R -> vec8 R -> vec8 R * vec8 R) (last : vec8 R -> R) z,
  (forall s a b c d e f g h, last (fst (del1 s (V8 (V4 a b c d) (V4 e f g h)))) = h /\
     snd (del1 s (V8 (V4 a b c d) (V4 e f g h))) = V8 (V4 (last s) a b c) (V4 d e f g)) ->
  z = set1_8 r0 -> last z = r0 ->
  forall blocks : list (vec8 R * vec8 R),
  concat (map list8 (rpole_run (rpole8_f (map2_8 radd) (map2_8 rsub) (map2_8 rmul) del1) (rpole8_init z) blocks)) =
  one_pole rsub rmul r0 (flat_map (fun '(x, a) => combine (list8 x) (list8 a)) blocks).
Proof.
  intros R r0 r1 radd rmul rsub ropp H del1 last z D Z L blocks. eapply (rp8_run r0 r1 radd rmul rsub ropp H del1 last D).
  apply (rp8_init0 r0 r1 radd rmul rsub ropp H last z Z L).
Qed.


Lemma Zr : ring_theory 0 1 Z.add Z.mul Z.sub Z.opp (@eq Z).
Proof. constructor; intros; ring. Qed.
(** ... but the AVX one-sample delay does not work (C25), and so neither does the filter: an impulse
    in sample 3, coefficient -1 (an integrator), is lost from sample 4 on. *)
Theorem rpole_avx_refuted :
  let x := V8 (V4 0 0 0 1) (V4 0 0 0 0) in let a := set1_8 (-1) in
  concat (map list8 (rpole_run (rpole8_f (map2_8 Z.add) (map2_8 Z.sub) (map2_8 Z.mul) del1_avx) (rpole8_init (set1_8 0)) [(x, a)])) = [0;0;0;1;0;0;0;0] /\
  one_pole Z.sub Z.mul 0 (flat_map (fun '(x, a) => combine (list8 x) (list8 a)) [(x, a)]) = [0;0;0;1;1;1;1;1].
Proof. split; reflexivity. Qed.
(** A working delay exists, so [rpole_avx_partial] is not vacuous. *)
Definition del1_fixed {A} (s v : vec8 A) : vec8 A * vec8 A :=
  match s, v with V8 _ (V4 _ _ _ l), V8 (V4 a b c d) (V4 e f g h) => (v, V8 (V4 l a b c) (V4 d e f g)) end.
Example rpole_avx_example :
  (forall s a b c d e f g h, (fun v : vec8 Z => match v with V8 _ (V4 _ _ _ l) => l end) (fst (del1_fixed s (V8 (V4 a b c d) (V4 e f g h)))) = h /\
     snd (del1_fixed s (V8 (V4 a b c d) (V4 e f g h))) = V8 (V4 (match s with V8 _ (V4 _ _ _ l) => l end) a b c) (V4 d e f g)) /\
  let x := V8 (V4 0 0 0 1) (V4 0 0 0 0) in let a := set1_8 (-1) in
  concat (map list8 (rpole_run (rpole8_f (map2_8 Z.add) (map2_8 Z.sub) (map2_8 Z.mul) del1_fixed) (rpole8_init (set1_8 0)) [(x, a); (x, a)])) =
   [0;0;0;1;1;1;1;1; 1;1;1;2;2;2;2;2].
Proof. split; [|reflexivity]. intros [? [? ? ? ?]] *. split; reflexivity. Qed.
Example rpole_example :
  concat (map list4 (rpole_run (rpole4_f (map2_4 Z.add) (map2_4 Z.sub) (map2_4 Z.mul) del1_sse) (rpole4_init (set1 0))
    [(V4 1 2 3 4, V4 (-1) (-2) 3 1); (V4 0 1 0 1, V4 2 1 (-1) 1)])) = [1; 4; -9; 13; -26; 27; 27; -26].
Proof. reflexivity. Qed.

(** ** C28, complex pole: SSE and NEON, and scalar. *)
Theorem cpole_vector_correct : forall (R : Type) (r0 r1 : R) radd rmul rsub ropp,
  ring_theory r0 r1 radd rmul rsub ropp (@eq R) -> forall (neon : bool) (blocks : list (vec4 R * vec4 R * vec4 R * vec4 R)),
  let del1 := if neon then del1_neon else del1_sse in
  flat_map (fun '(yr, yi) => combine (list4 yr) (list4 yi))
    (cpole_run (cpole4_f (map2_4 radd) (map2_4 rsub) (map2_4 rmul) del1) (cpole4_init (set1 r0)) blocks) =
  complex_one_pole radd rsub rmul (r0, r0)
    (flat_map (fun '(xr, xi, ar, ai) => combine (combine (list4 xr) (list4 xi)) (combine (list4 ar) (list4 ai))) blocks).
Proof.
  intros. eapply (cp_run r0 r1 radd rmul rsub ropp H).
  - unfold del1. destruct neon; [apply neon_ok4 | apply sse_ok4].
  - apply (cp_init r0 r1 radd rmul rsub ropp H).
Qed.
Theorem cpole_scalar_correct : forall (R : Type) (r0 : R) radd rsub rmul (blocks : list (R * R * R * R)),
  cpole_run (cpole1_f radd rsub rmul) (r0, r0) blocks =
  complex_one_pole radd rsub rmul (r0, r0) (map (fun '(xr, xi, ar, ai) => ((xr, xi), (ar, ai))) blocks).
Proof.
  intros. assert (G : forall y, cpole_run (cpole1_f radd rsub rmul) y blocks =
    complex_one_pole radd rsub rmul y (map (fun '(xr, xi, ar, ai) => ((xr, xi), (ar, ai))) blocks)); [|apply G].
  induction blocks as [|[[[xr xi] ar] ai] l IH]; intro y; [reflexivity|]. destruct y as [yr yi]. cbn. rewrite IH. reflexivity.
Qed.
(** AVX: the second output is never written (it keeps what the buffer held), the first one receives
    the imaginary part, and the computation drops the previous output - with any one-sample delay. *)
Theorem cpole_avx_refuted :
  (forall V vadd vsub vmul del1 (o : cpole8 V) xr xi ar ai before,
     let '(o', (y0, y1)) := cpole8_f vadd vsub vmul del1 o xr xi ar ai before in y1 = before /\ y0 = c8_ymi o') /\
  let one := V8 (V4 1 0 0 0) (set1 0) in let z := set1_8 0 in
  let step o x x' a a' := cpole8_f (map2_8 Z.add) (map2_8 Z.sub) (map2_8 Z.mul) del1_fixed o x x' a a' z in
  map (fun y => list8 (fst y)) (cpole_run step (cpole8_init z) [(one, z, set1_8 (-1), z)]) = [[0;0;0;0;0;0;0;0]] /\
  map fst (complex_one_pole Z.add Z.sub Z.mul (0, 0) (map (fun x => ((x, 0), (-1, 0))) (list8 one))) = [1;1;1;1;1;1;1;1].
Proof.
  split; [|split; reflexivity]. intros. unfold cpole8_f.
  repeat match goal with |- context [match del1 ?a ?b with _ => _ end] => destruct (del1 a b) end. split; reflexivity.
Qed.
Example cpole_example :
  cpole_run (cpole4_f (map2_4 Z.add) (map2_4 Z.sub) (map2_4 Z.mul) del1_neon) (cpole4_init (set1 0))
    [(V4 1 0 0 0, V4 0 0 0 0, set1 0, set1 1); (set1 0, set1 0, set1 0, set1 1)] =
  [(V4 1 0 (-1) 0, V4 0 (-1) 0 1); (V4 1 0 (-1) 0, V4 0 (-1) 0 1)].
Proof. reflexivity. Qed.

Print Assumptions rpole_vector_correct.
Print Assumptions rpole_scalar_correct.
Print Assumptions rpole_avx_partial.
Print Assumptions rpole_avx_refuted.
Print Assumptions cpole_vector_correct.
Print Assumptions cpole_scalar_correct.
Print Assumptions cpole_avx_refuted.
