(** C28 (biquad) and C29. *)
From Verif Require Import BiquadModel PoleSpec.
From Coq Require Import Ring.

(** The samples of one block with their coefficients. *)
Definition lanes4 {R} (b : vec4 R * vec4 R * vec4 R * vec4 R * vec4 R * vec4 R) : list (R * coeffs R) :=
  let '(x, k0, k1, k2, k3, k4) := b in
  map (fun i => (lane x i, {| b0 := lane k0 i; b1 := lane k1 i; b2 := lane k2 i; a1 := lane k3 i; a2 := lane k4 i |})) (seq 0 4).
Definition lanes8 {R} (b : vec8 R * vec8 R * vec8 R * vec8 R * vec8 R * vec8 R) : list (R * coeffs R) :=
  match b with (V8 x x', V8 k0 k0', V8 k1 k1', V8 k2 k2', V8 k3 k3', V8 k4 k4') =>
    lanes4 (x, k0, k1, k2, k3, k4) ++ lanes4 (x', k0', k1', k2', k3', k4') end.
Definition lanes1 {R} (b : R * R * R * R * R * R) : list (R * coeffs R) :=
  let '(x, k0, k1, k2, k3, k4) := b in [(x, {| b0 := k0; b1 := k1; b2 := k2; a1 := k3; a2 := k4 |})].
(** The coefficients in force at each sample of a history with messages: inlets 1 to 5 set b0, b1, b2, a1, a2. *)
Definition set_coeff {R} (k : coeffs R) (i : Z) (v : R) : coeffs R :=
  {| b0 := if i =? 1 then v else k.(b0); b1 := if i =? 2 then v else k.(b1); b2 := if i =? 3 then v else k.(b2);
     a1 := if i =? 4 then v else k.(a1); a2 := if i =? 5 then v else k.(a2) |}.
Fixpoint with_coeffs {R V} (samples : V -> list R) (k : coeffs R) (ops : list (bqk_op (R:=R) V)) : list (R * coeffs R) :=
  match ops with
  | [] => []
  | BBlock v :: ops' => map (fun x => (x, k)) (samples v) ++ with_coeffs samples k ops'
  | BMsg i v :: ops' => with_coeffs samples (set_coeff k i v) ops'
  end.

Section P.
Context {R : Type} (r0 r1 : R) (radd rmul rsub : R -> R -> R) (ropp : R -> R).
Hypothesis Rth : ring_theory r0 r1 radd rmul rsub ropp (@eq R).
Add Ring Rr : Rth.
Notation "a + b" := (radd a b). Notation "a - b" := (rsub a b). Notation "a * b" := (rmul a b).
Notation spec := (biquad_eq radd rsub rmul).

Ltac heads := repeat match goal with |- ?a :: _ = ?b :: _ => replace a with b by ring; f_equal end.


Lemma bq4_step (neon : bool) (x v k0 k1 k2 k3 k4 : vec4 R) ym1 ym2 :
  let '(o', out) := (if neon then biquad_neon radd rsub rmul else biquad_sse radd rsub rmul) (bq_mk x ym1 ym2) v k0 k1 k2 k3 k4 in
  bq_x o' = v /\ forall l,
  spec (lane x 3) (lane x 2) ym1 ym2 (lanes4 (v, k0, k1, k2, k3, k4) ++ l) = list4 out ++ spec (lane v 3) (lane v 2) (bq_ym1 o') (bq_ym2 o') l.
Proof.
  destruct v as [v0 v1 v2 v3], k0 as [p0 p1 p2 p3], k1 as [q0 q1 q2 q3], k2 as [s0 s1 s2 s3], k3 as [t0 t1 t2 t3], k4 as [u0 u1 u2 u3], x as [x0 x1 x2 x3].
  destruct neon; cbn; (split; [reflexivity|intro l]); heads.
Qed.
Lemma bq4_run (neon : bool) blocks : forall o : bq (vec4 R),
  concat (map list4 (biquad_run (if neon then biquad_neon radd rsub rmul else biquad_sse radd rsub rmul) o blocks)) =
  spec (lane (bq_x o) 3) (lane (bq_x o) 2) (bq_ym1 o) (bq_ym2 o) (flat_map lanes4 blocks).
Proof.
  induction blocks as [|[[[[[v k0] k1] k2] k3] k4] blocks IH]; intro o; [reflexivity|].
  cbn [biquad_run flat_map]. destruct o as [x y1 y2]. pose proof (bq4_step neon x v k0 k1 k2 k3 k4 y1 y2) as S.
  destruct ((if neon then _ else _) _ v k0 k1 k2 k3 k4) as [o' out]. destruct S as [<- E].
  cbn [bq_x bq_ym1 bq_ym2]. rewrite E. cbn [map concat]. f_equal. apply IH.
Qed.
Notation hi v := (match v with V8 _ h => h end).
Lemma bq8_step (x v k0 k1 k2 k3 k4 : vec8 R) ym1 ym2 :
  let '(o', out) := biquad_avx radd rsub rmul (bq_mk x ym1 ym2) v k0 k1 k2 k3 k4 in
  bq_x o' = v /\ forall l,
  spec (lane (hi x) 3) (lane (hi x) 2) ym1 ym2 (lanes8 (v, k0, k1, k2, k3, k4) ++ l) = list8 out ++ spec (lane (hi v) 3) (lane (hi v) 2) (bq_ym1 o') (bq_ym2 o') l.
Proof.
  destruct v as [[v0 v1 v2 v3] [v4 v5 v6 v7]], k0 as [[p0 p1 p2 p3] [p4 p5 p6 p7]], k1 as [[q0 q1 q2 q3] [q4 q5 q6 q7]],
   k2 as [[s0 s1 s2 s3] [s4 s5 s6 s7]], k3 as [[t0 t1 t2 t3] [t4 t5 t6 t7]], k4 as [[u0 u1 u2 u3] [u4 u5 u6 u7]], x as [[x0 x1 x2 x3] [x4 x5 x6 x7]].
  cbn; (split; [reflexivity|intro l]); heads.
Qed.
Lemma bq8_run blocks : forall o : bq (vec8 R),
  concat (map list8 (biquad_run (biquad_avx radd rsub rmul) o blocks)) =
  spec (lane (hi (bq_x o)) 3) (lane (hi (bq_x o)) 2) (bq_ym1 o) (bq_ym2 o) (flat_map lanes8 blocks).
Proof.
  induction blocks as [|[[[[[v k0] k1] k2] k3] k4] blocks IH]; intro o; [reflexivity|].
  cbn [biquad_run flat_map]. destruct o as [x y1 y2]. pose proof (bq8_step x v k0 k1 k2 k3 k4 y1 y2) as S.
  destruct (biquad_avx radd rsub rmul _ v k0 k1 k2 k3 k4) as [o' out]. destruct S as [<- E].
  cbn [bq_x bq_ym1 bq_ym2]. rewrite E. cbn [map concat]. f_equal. apply IH.
Qed.
Lemma bq1_run blocks : forall x1 x2 y1 y2,
  biquad_run (biquad_scalar radd rsub rmul) (x1, x2, y1, y2) blocks = spec x1 x2 y1 y2 (flat_map lanes1 blocks).
Proof.
  induction blocks as [|[[[[[v k0] k1] k2] k3] k4] blocks IH]; intros; [reflexivity|].
  cbn. rewrite IH. replace (v * k0 + x1 * k1 + x2 * k2 - y1 * k3 - y2 * k4) with (k0 * v + k1 * x1 + k2 * x2 - k3 * y1 - k4 * y2) by ring.
  reflexivity.
Qed.

(** Message-rate coefficients. *)
Definition kc (o : bqk (R:=R)) : coeffs R := {| b0 := k_b0 o; b1 := k_b1 o; b2 := k_b2 o; a1 := k_a1 o; a2 := k_a2 o |}.
Definition bqk_ok (o : bqk) (x1 x2 y1 y2 : R) : Prop :=
  k_xm1 o = set1 x1 /\ k_xm2 o = set1 x2 /\ k_ym1 o = set1 y1 /\ k_ym2 o = set1 y2 /\
  k_mat o = update_coeffs r0 radd rmul ropp (k_b0 o) (k_b1 o) (k_b2 o) (k_a1 o) (k_a2 o).
Lemma bqk_sum_eq b0' b1' b2' a1' a2' v0 v1 v2 v3 x1 x2 y1 y2 : exists w0 w1 w2 w3,
  bqk_sum radd rmul (update_coeffs r0 radd rmul ropp b0' b1' b2' a1' a2') (set1 v3) (set1 v2) (set1 v1) (set1 v0) (set1 x1) (set1 x2) (set1 y1) (set1 y2) = V4 w0 w1 w2 w3 /\
  forall l, let k := {| b0 := b0'; b1 := b1'; b2 := b2'; a1 := a1'; a2 := a2' |} in
  spec x1 x2 y1 y2 ((v0, k) :: (v1, k) :: (v2, k) :: (v3, k) :: l) = w0 :: w1 :: w2 :: w3 :: spec v3 v2 w3 w2 l.
Proof. do 4 eexists. split; [cbn; reflexivity|]. intro l. cbn. heads. Qed.
Lemma kc_message o i v : kc (bqk_message r0 radd rmul ropp o i v) = set_coeff (kc o) i v.
Proof.
  unfold bqk_message, set_coeff, kc. destruct i as [|p|p]; try reflexivity.
  do 4 (try destruct p as [p|p|]); reflexivity.
Qed.
Lemma bqk_ok_message o x1 x2 y1 y2 i v : bqk_ok o x1 x2 y1 y2 -> bqk_ok (bqk_message r0 radd rmul ropp o i v) x1 x2 y1 y2.
Proof.
  intros (H1 & H2 & H3 & H4 & H5). unfold bqk_message, bqk_ok. destruct i as [|p|p]; auto 6.
  do 3 (try destruct p as [p|p|]); cbn; auto 6.
Qed.
Lemma bqk4_run (neon : bool) ops : forall o x1 x2 y1 y2, bqk_ok o x1 x2 y1 y2 ->
  concat (map list4 (bqk_run (if neon then bqk_neon radd rmul else bqk_sse radd rmul) (bqk_message r0 radd rmul ropp) o ops)) =
  spec x1 x2 y1 y2 (with_coeffs list4 (kc o) ops).
Proof.
  induction ops as [|[v|i v] ops IH]; intros o x1 x2 y1 y2 H; [reflexivity| |].
  - destruct v as [v0 v1 v2 v3]. cbn [bqk_run with_coeffs list4 map app].
    destruct H as (H1 & H2 & H3 & H4 & H5).
    destruct (bqk_sum_eq (k_b0 o) (k_b1 o) (k_b2 o) (k_a1 o) (k_a2 o) v0 v1 v2 v3 x1 x2 y1 y2) as (w0 & w1 & w2 & w3 & E & F).
    rewrite <- H5 in E. unfold kc. rewrite F.
    assert (S : (if neon then bqk_neon radd rmul else bqk_sse radd rmul) o (V4 v0 v1 v2 v3) =
       (with_state o (set1 v3) (set1 v2) (set1 w3) (set1 w2), V4 w0 w1 w2 w3)).
    { destruct neon; unfold bqk_neon, bqk_sse, shuffle; cbn [lane]; rewrite H1, H2, H3, H4; fold (set1 v3) (set1 v2) (set1 v1) (set1 v0); rewrite E; reflexivity. }
    rewrite S. cbn [map concat list4 app]. do 4 f_equal.
    rewrite (IH _ v3 v2 w3 w2). { reflexivity. } unfold bqk_ok. cbn. auto 6.
  - cbn [bqk_run with_coeffs]. rewrite <- kc_message. apply IH. apply bqk_ok_message; auto.
Qed.
Lemma bqk8_run ops : forall o x1 x2 y1 y2, bqk_ok o x1 x2 y1 y2 ->
  concat (map list8 (bqk_run (bqk_avx radd rmul) (bqk_message r0 radd rmul ropp) o ops)) =
  spec x1 x2 y1 y2 (with_coeffs list8 (kc o) ops).
Proof.
  induction ops as [|[v|i v] ops IH]; intros o x1 x2 y1 y2 H; [reflexivity| |].
  - destruct v as [[v0 v1 v2 v3] [v4 v5 v6 v7]]. cbn [bqk_run with_coeffs list8 list4 map app].
    destruct H as (H1 & H2 & H3 & H4 & H5).
    destruct (bqk_sum_eq (k_b0 o) (k_b1 o) (k_b2 o) (k_a1 o) (k_a2 o) v0 v1 v2 v3 x1 x2 y1 y2) as (w0 & w1 & w2 & w3 & E & F).
    destruct (bqk_sum_eq (k_b0 o) (k_b1 o) (k_b2 o) (k_a1 o) (k_a2 o) v4 v5 v6 v7 v3 v2 w3 w2) as (w4 & w5 & w6 & w7 & E' & F').
    rewrite <- H5 in E, E'. unfold kc. rewrite F, F'.
    assert (S : bqk_avx radd rmul o (V8 (V4 v0 v1 v2 v3) (V4 v4 v5 v6 v7)) =
       (with_state o (set1 v7) (set1 v6) (set1 w7) (set1 w6), V8 (V4 w0 w1 w2 w3) (V4 w4 w5 w6 w7))).
    { unfold bqk_avx; cbn [lane]; rewrite H1, H2, H3, H4. rewrite E. cbn [lane]. rewrite E'. reflexivity. }
    rewrite S. cbn [map concat list8 list4 app]. do 8 f_equal.
    rewrite (IH _ v7 v6 w7 w6). { reflexivity. } unfold bqk_ok. cbn. auto 6.
  - cbn [bqk_run with_coeffs]. rewrite <- kc_message. apply IH. apply bqk_ok_message; auto.
Qed.
Definition kc1 (o : bqk1 (R:=R)) : coeffs R := {| b0 := s_b0 o; b1 := s_b1 o; b2 := s_b2 o; a1 := s_a1 o; a2 := s_a2 o |}.
Lemma bqk1_run ops : forall o,
  bqk_run (bqk_scalar radd rsub rmul) bqk1_message o ops =
  spec (s_xm1 o) (s_xm2 o) (s_ym1 o) (s_ym2 o) (with_coeffs (fun x => [x]) (kc1 o) ops).
Proof.
  induction ops as [|[v|i v] ops IH]; intro o; [reflexivity| |].
  - cbn. rewrite IH. reflexivity.
  - cbn [bqk_run with_coeffs]. rewrite IH.
    replace (kc1 (bqk1_message o i v)) with (set_coeff (kc1 o) i v).
    + f_equal; unfold bqk1_message; destruct i as [|p|p]; auto; do 3 (try destruct p as [p|p|]); reflexivity.
    + unfold bqk1_message, set_coeff, kc1. destruct i as [|p|p]; try reflexivity. do 4 (try destruct p as [p|p|]); reflexivity.
Qed.
End P.

(** C28, biquad with signal-rate coefficients: all four builds, every ring, every history. *)
Theorem biquad_correct : forall (R : Type) (r0 r1 : R) radd rmul rsub ropp,
  ring_theory r0 r1 radd rmul rsub ropp (@eq R) ->
  (forall (neon : bool) blocks,
    concat (map list4 (biquad_run (if neon then biquad_neon radd rsub rmul else biquad_sse radd rsub rmul) (bq_mk (set1 r0) r0 r0) blocks)) =
    biquad_eq radd rsub rmul r0 r0 r0 r0 (flat_map lanes4 blocks)) /\
  (forall blocks,
    concat (map list8 (biquad_run (biquad_avx radd rsub rmul) (bq_mk (set1_8 r0) r0 r0) blocks)) =
    biquad_eq radd rsub rmul r0 r0 r0 r0 (flat_map lanes8 blocks)) /\
  (forall blocks,
    biquad_run (biquad_scalar radd rsub rmul) (r0, r0, r0, r0) blocks =
    biquad_eq radd rsub rmul r0 r0 r0 r0 (flat_map lanes1 blocks)).
Proof.
  intros R r0 r1 radd rmul rsub ropp H. split; [|split]; intros.
  - rewrite (bq4_run r0 r1 radd rmul rsub ropp H). reflexivity.
  - rewrite (bq8_run r0 r1 radd rmul rsub ropp H). reflexivity.
  - apply (bq1_run r0 r1 radd rmul rsub ropp H).
Qed.

(** C29: all four builds, every coefficient set, every history of blocks and coefficient messages. *)
Theorem biquad_k_correct : forall (R : Type) (r0 r1 : R) radd rmul rsub ropp,
  ring_theory r0 r1 radd rmul rsub ropp (@eq R) -> forall c0 c1 c2 d1 d2 : R,
  let k := {| b0 := c0; b1 := c1; b2 := c2; a1 := d1; a2 := d2 |} in
  let init := bqk_init r0 radd rmul ropp c0 c1 c2 d1 d2 in
  let msg := bqk_message r0 radd rmul ropp in
  (forall (neon : bool) ops,
    concat (map list4 (bqk_run (if neon then bqk_neon radd rmul else bqk_sse radd rmul) msg init ops)) =
    biquad_eq radd rsub rmul r0 r0 r0 r0 (with_coeffs list4 k ops)) /\
  (forall ops,
    concat (map list8 (bqk_run (bqk_avx radd rmul) msg init ops)) =
    biquad_eq radd rsub rmul r0 r0 r0 r0 (with_coeffs list8 k ops)) /\
  (forall ops,
    bqk_run (bqk_scalar radd rsub rmul) bqk1_message (bqk1_init r0 c0 c1 c2 d1 d2) ops =
    biquad_eq radd rsub rmul r0 r0 r0 r0 (with_coeffs (fun x => [x]) k ops)).
Proof.
  intros R r0 r1 radd rmul rsub ropp H c0 c1 c2 d1 d2 k init msg.
  assert (I : bqk_ok r0 radd rmul ropp init r0 r0 r0 r0) by (repeat split).
  split; [|split]; intros.
  - apply (bqk4_run r0 r1 radd rmul rsub ropp H neon ops init r0 r0 r0 r0 I).
  - apply (bqk8_run r0 r1 radd rmul rsub ropp H ops init r0 r0 r0 r0 I).
  - rewrite bqk1_run. reflexivity.
Qed.
Example biquad_example :
  let one := V4 1 0 0 0 in let z := set1 0 in
  concat (map list4 (biquad_run (biquad_sse Z.add Z.sub Z.mul) (bq_mk (set1 0) 0 0)
     [(one, set1 3, set1 5, set1 7, set1 (-1), set1 (-1)); (z, set1 3, set1 5, set1 7, set1 (-1), set1 (-1))])) = [3; 8; 18; 26; 44; 70; 114; 184] /\
  concat (map list8 (bqk_run (bqk_avx Z.add Z.mul) (bqk_message 0 Z.add Z.mul Z.opp) (bqk_init 0 Z.add Z.mul Z.opp 3 5 7 (-1) (-1))
     [BBlock (V8 one z); BMsg 4 0; BBlock (V8 z z)])) = [3; 8; 18; 26; 44; 70; 114; 184; 114; 184; 114; 184; 114; 184; 114; 184].
Proof. split; reflexivity. Qed.

Print Assumptions biquad_correct.
Print Assumptions biquad_k_correct.
