(** line: the values lie on the straight line. *)
From Verif Require Import RampSpec Float32Facts RecorderProofs.
From Coq Require Import Lia Reals Lra.
From Flocq Require Import Core.
From Verif Require SndProofs5 PhasorProofs.
Open Scope R_scope.

Definition w24 : R := / 16777216.
Definition tiny : R := bpow radix2 (-150).
Lemma tiny_small : 0 < tiny <= / 1000000000000000000000.
Proof.
  split; [apply bpow_gt_0 |]. apply Rle_trans with (bpow radix2 (-70)); [apply bpow_le; lia |].
  change (bpow radix2 (-70)) with (/ IZR (2 ^ 70)). apply Rinv_le; [lra |]. apply IZR_le. lia.
Qed.
Lemma rnd_err r : Rabs (rnd32 r - r) <= w24 * Rabs r + tiny.
Proof. exact (SndProofs5.rnd_rel r). Qed.

Section Line.
Variables (a b : f32) (ms g : Z) (M : R).
Hypothesis Fa : is_finite a = true.
Hypothesis Fb : is_finite b = true.
Hypothesis HM : 1 <= M <= bpow radix2 80.
Hypothesis Ha : Rabs (R32 a) <= M.
Hypothesis Hb : Rabs (R32 b) <= M.
Hypothesis Hms : (1 <= ms <= 2 ^ 18)%Z.
Hypothesis Hg : (1 <= g <= 2 ^ 18)%Z.
Let D := R32 b - R32 a.
Let Q := IZR ms / IZR g.

Lemma D_bound : Rabs D <= 2 * M.
Proof. unfold D. apply Rabs_def2b in Ha || idtac. apply Rabs_le. apply Rabs_le_inv in Ha, Hb. lra. Qed.
Lemma Q_bound : / 262144 <= Q <= 262144.
Proof.
  assert (1 <= IZR ms <= 262144) by (split; apply IZR_le; lia). assert (1 <= IZR g <= 262144) by (split; apply IZR_le; lia).
  unfold Q, Rdiv. assert (/ 262144 <= / IZR g <= 1).
  { split; [apply Rinv_le; lra |]. rewrite <- Rinv_1. apply Rinv_le; lra. }
  split; [apply Rle_trans with (1 * / IZR g); [lra | apply Rmult_le_compat_r; lra] |].
  apply Rle_trans with (IZR ms * 1); [apply Rmult_le_compat_l; lra | lra].
Qed.

Lemma fsub_D : is_finite (fsub b a) = true /\ Rabs (R32 (fsub b a) - D) <= w24 * Rabs D + tiny.
Proof.
  pose proof D_bound as HD. destruct (fsub_R b a 81 Fb Fa) as [E F].
  - fold D. eapply Rle_trans; [exact HD |]. replace (bpow radix2 81) with (2 * bpow radix2 80) by (change 2 with (bpow radix2 1); rewrite <- bpow_plus; reflexivity). lra.
  - lia.
  - split; [exact F |]. rewrite E. fold D. apply rnd_err.
Qed.
Lemma steps_Q : feqb (of_int g) fzero = false /\ is_finite (fdiv (of_int ms) (of_int g)) = true /\
  Rabs (R32 (fdiv (of_int ms) (of_int g)) - Q) <= 101 / 100 * w24 * Q.
Proof.
  pose proof Q_bound as HQ. destruct (of_int_exact g) as [A1 A2]; [lia |]. destruct (of_int_exact ms) as [B1 B2]; [lia |].
  split.
  { unfold feqb. rewrite Beqb_correct by (exact A2 || reflexivity). rewrite A1. apply Req_bool_false. cbn. intros H. apply eq_IZR in H. lia. }
  destruct (fdiv_R' (of_int ms) (of_int g) 18 B2) as [E F].
  - rewrite A1. intros H. apply eq_IZR in H. lia.
  - rewrite A1, B1. fold Q. rewrite Rabs_pos_eq by lra. change (bpow radix2 18) with 262144. lra.
  - lia.
  - split; [exact F |]. rewrite E, A1, B1. fold Q. eapply Rle_trans; [apply rnd_err |]. rewrite Rabs_pos_eq by lra.
    pose proof tiny_small. unfold w24. lra.
Qed.
(** What is added at each step. *)
Let p := step_to a b ms g.
Lemma step_near : is_finite p = true /\ Rabs (R32 p - D / Q) <= (32 / 10 * w24 * Rabs D + 4 * tiny) * / Q + tiny.
Proof.
  destruct fsub_D as [F1 E1]. destruct steps_Q as (G0 & F2 & E2). pose proof Q_bound as HQ. pose proof D_bound as HD. pose proof tiny_small as HT.
  set (d := fsub b a) in *. set (s := fdiv (of_int ms) (of_int g)) in *.
  assert (Hs : 999 / 1000 * Q <= R32 s) by (apply Rabs_le_inv in E2; unfold w24 in E2; lra).
  assert (Hs2 : R32 s <= 1001 / 1000 * Q) by (apply Rabs_le_inv in E2; unfold w24 in E2; lra).
  assert (NZ : R32 s <> 0) by lra.
  assert (P : p = fdiv d s).
  { unfold p, step_to. assert (R1 : ratio (of_int ms) (of_int g) = s) by (unfold ratio; rewrite G0; reflexivity). rewrite R1. unfold ratio.
    replace (feqb s fzero) with false; [reflexivity |].
    symmetry. unfold feqb. rewrite Beqb_correct by (exact F2 || reflexivity). apply Req_bool_false. cbn. exact NZ. }
  rewrite P.
  assert (HD2 : Rabs (R32 d) <= 1001 / 1000 * Rabs D + tiny).
  { replace (R32 d) with (D + (R32 d - D)) by lra. eapply Rle_trans; [apply Rabs_triang |]. pose proof (Rabs_pos D). unfold w24 in E1. lra. }
  assert (IQ : 0 < / Q) by (apply Rinv_0_lt_compat; lra).
  assert (IS : 0 < / R32 s <= 1002 / 1000 * / Q).
  { split; [apply Rinv_0_lt_compat; lra |]. apply Rle_trans with (/ (999 / 1000 * Q)); [apply Rinv_le; lra |].
    rewrite Rinv_mult. apply Rmult_le_compat_r; lra. }
  assert (HX : Rabs (R32 d / R32 s) <= (1004 / 1000 * Rabs D + 2 * tiny) * / Q).
  { unfold Rdiv. rewrite Rabs_mult, (Rabs_pos_eq (/ R32 s)) by lra.
    apply Rle_trans with ((1001 / 1000 * Rabs D + tiny) * (1002 / 1000 * / Q)); [apply Rmult_le_compat; try apply Rabs_pos; lra |].
    rewrite <- Rmult_assoc. apply Rmult_le_compat_r; [lra |]. pose proof (Rabs_pos D). lra. }
  destruct (fdiv_R' d s 100 F1 NZ) as [E F].
  { eapply Rle_trans; [exact HX |]. apply Rle_trans with ((3 * M) * 262144).
    - assert (IQ2 : / Q <= 262144) by (rewrite <- (Rinv_inv 262144); apply Rinv_le; lra).
      apply Rmult_le_compat; [pose proof (Rabs_pos D); lra | lra | lra | exact IQ2].
    - apply Rle_trans with (1048576 * M); [lra |]. apply Rle_trans with (bpow radix2 20 * bpow radix2 80); [change (bpow radix2 20) with 1048576; lra |].
      rewrite <- bpow_plus. apply Rle_refl. }
  { lia. }
  split; [exact F |]. rewrite E. 
  assert (HY : Rabs (R32 d / R32 s - D / Q) <= (21 / 10 * w24 * Rabs D + 2 * tiny) * / Q).
  { replace (R32 d / R32 s - D / Q) with ((R32 d - D) * / R32 s + (D * / Q) * (Q - R32 s) * / R32 s) by (field; lra).
    eapply Rle_trans; [apply Rabs_triang |]. rewrite !Rabs_mult, (Rabs_pos_eq (/ R32 s)), (Rabs_pos_eq (/ Q)) by lra.
    rewrite (Rabs_minus_sym Q).
    apply Rle_trans with ((w24 * Rabs D + tiny) * (1002 / 1000 * / Q) + Rabs D * / Q * (101 / 100 * w24 * Q) * (1002 / 1000 * / Q)).
    - apply Rplus_le_compat; [apply Rmult_le_compat; try apply Rabs_pos; lra |].
      apply Rmult_le_compat; [apply Rmult_le_pos; [apply Rmult_le_pos; [apply Rabs_pos | lra] | apply Rabs_pos] | lra | | lra].
      apply Rmult_le_compat_l; [apply Rmult_le_pos; [apply Rabs_pos | lra] | exact E2].
    - replace (Rabs D * / Q * (101 / 100 * w24 * Q) * (1002 / 1000 * / Q)) with (101 / 100 * (1002 / 1000) * w24 * Rabs D * / Q) by (field; lra).
      replace ((w24 * Rabs D + tiny) * (1002 / 1000 * / Q) + 101 / 100 * (1002 / 1000) * w24 * Rabs D * / Q) with
        (((1002 / 1000) * (w24 * Rabs D + tiny) + 101 / 100 * (1002 / 1000) * (w24 * Rabs D)) * / Q) by lra.
      apply Rmult_le_compat_r; [lra |]. pose proof (Rabs_pos D). assert (0 <= w24 * Rabs D) by (apply Rmult_le_pos; [unfold w24; lra | lra]). lra. }
  replace (rnd32 (R32 d / R32 s) - D / Q) with ((rnd32 (R32 d / R32 s) - R32 d / R32 s) + (R32 d / R32 s - D / Q)) by lra.
  eapply Rle_trans; [apply Rabs_triang |]. pose proof (rnd_err (R32 d / R32 s)) as HR.
  assert (HR2 : Rabs (rnd32 (R32 d / R32 s) - R32 d / R32 s) <= (1004 / 1000 * (w24 * Rabs D) + tiny) * / Q + tiny).
  { eapply Rle_trans; [exact HR |]. apply Rplus_le_compat_r. apply Rle_trans with (w24 * ((1004 / 1000 * Rabs D + 2 * tiny) * / Q)).
    - apply Rmult_le_compat_l; [unfold w24; lra | exact HX].
    - rewrite <- Rmult_assoc. apply Rmult_le_compat_r; [lra |]. unfold w24. lra. }
  apply Rle_trans with (((1004 / 1000 * (w24 * Rabs D) + tiny) * / Q + tiny) + (21 / 10 * w24 * Rabs D + 2 * tiny) * / Q); [lra |].
  replace (((1004 / 1000 * (w24 * Rabs D) + tiny) * / Q + tiny) + (21 / 10 * w24 * Rabs D + 2 * tiny) * / Q) with
    ((1004 / 1000 * (w24 * Rabs D) + tiny + (21 / 10 * w24 * Rabs D + 2 * tiny)) * / Q + tiny) by lra.
  apply Rplus_le_compat_r, Rmult_le_compat_r; [lra |]. pose proof (Rabs_pos D). assert (0 <= w24 * Rabs D) by (apply Rmult_le_pos; [unfold w24; lra | lra]). lra.
Qed.

(** The straight line stays between its ends. *)
Lemma on_line i : 0 <= i <= Q -> Rabs (R32 a + i * (D / Q)) <= M.
Proof.
  intros Hi. pose proof Q_bound. assert (IQ : 0 < / Q) by (apply Rinv_0_lt_compat; lra).
  assert (T : 0 <= i * / Q <= 1).
  { split; [apply Rmult_le_pos; lra |]. replace 1 with (Q * / Q) by (field; lra). apply Rmult_le_compat_r; lra. }
  replace (R32 a + i * (D / Q)) with ((1 - i * / Q) * R32 a + (i * / Q) * R32 b) by (unfold D; field; lra).
  eapply Rle_trans; [apply Rabs_triang |]. rewrite (Rabs_mult (1 - i * / Q)), (Rabs_mult (i * / Q)), (Rabs_pos_eq (i * / Q)), (Rabs_pos_eq (1 - i * / Q)) by lra.
  apply Rle_trans with ((1 - i * / Q) * M + i * / Q * M); [| lra]. apply Rplus_le_compat; apply Rmult_le_compat_l; lra.
Qed.
Let e : R := (32 / 10 * w24 * Rabs D + 4 * tiny) * / Q + tiny.
Lemma e_total i : 0 <= i <= Q -> i * e <= 65 / 10 * w24 * M.
Proof.
  intros Hi. pose proof Q_bound as HQ. pose proof D_bound as HD. pose proof tiny_small. assert (IQ : 0 < / Q) by (apply Rinv_0_lt_compat; lra). unfold e.
  rewrite Rmult_plus_distr_l. assert (HA : 0 <= 32 / 10 * w24 * Rabs D + 4 * tiny) by (pose proof (Rabs_pos D); assert (0 <= w24 * Rabs D) by (apply Rmult_le_pos; [unfold w24; lra | lra]); lra).
  apply Rle_trans with ((32 / 10 * w24 * Rabs D + 4 * tiny) + 262144 * tiny).
  - apply Rplus_le_compat.
    + replace (i * ((32 / 10 * w24 * Rabs D + 4 * tiny) * / Q)) with ((32 / 10 * w24 * Rabs D + 4 * tiny) * (i * / Q)) by lra.
      rewrite <- (Rmult_1_r (32 / 10 * w24 * Rabs D + 4 * tiny)) at 2. apply Rmult_le_compat_l; [exact HA |].
      replace 1 with (Q * / Q) by (field; lra). apply Rmult_le_compat_r; lra.
    + apply Rmult_le_compat_r; lra.
  - unfold w24. lra.
Qed.
Lemma e_pos : 0 <= e.
Proof.
  pose proof Q_bound as HQ. pose proof tiny_small. assert (IQ : 0 < / Q) by (apply Rinv_0_lt_compat; lra). unfold e.
  pose proof (Rabs_pos D). assert (0 <= w24 * Rabs D) by (apply Rmult_le_pos; [unfold w24; lra | lra]).
  assert (0 <= (32 / 10 * w24 * Rabs D + 4 * tiny) * / Q) by (apply Rmult_le_pos; lra). lra.
Qed.
Lemma value_near (i : nat) : INR i <= Q ->
  is_finite (ramp_value a p i) = true /\ Rabs (R32 (ramp_value a p i) - (R32 a + INR i * (D / Q))) <= INR i * (e + 21 / 10 * w24 * M).
Proof.
  destruct step_near as [Fp Ep]. fold e in Ep. pose proof Q_bound as HQ. pose proof e_pos as He. pose proof tiny_small as HT.
  induction i as [| i IH]; intros Hi.
  - cbn [ramp_value Nat.iter INR]. split; [exact Fa |]. rewrite !Rmult_0_l, Rplus_0_r. unfold Rminus. rewrite Rplus_opp_r, Rabs_R0. lra.
  - rewrite S_INR in Hi. destruct IH as [F1 E1]; [lra |]. pose proof (pos_INR i) as Pi. rewrite S_INR.
    set (x := ramp_value a p i) in *. change (ramp_value a p (S i)) with (fadd x p).
    pose proof (on_line (INR i + 1) ltac:(lra)) as HL. pose proof (e_total (INR i + 1) ltac:(lra)) as HE.
    assert (HS : Rabs (R32 x + R32 p - (R32 a + (INR i + 1) * (D / Q))) <= INR i * (e + 21 / 10 * w24 * M) + e).
    { replace (R32 x + R32 p - (R32 a + (INR i + 1) * (D / Q))) with ((R32 x - (R32 a + INR i * (D / Q))) + (R32 p - D / Q)) by lra.
      eapply Rle_trans; [apply Rabs_triang |]. lra. }
    assert (HI : INR i * (21 / 10 * w24 * M) <= 4 / 100 * M).
    { apply Rle_trans with (262144 * (21 / 10 * w24 * M)); [apply Rmult_le_compat_r; [unfold w24; lra | lra] | unfold w24; lra]. }
    assert (HX : Rabs (R32 x + R32 p) <= 105 / 100 * M).
    { replace (R32 x + R32 p) with ((R32 a + (INR i + 1) * (D / Q)) + (R32 x + R32 p - (R32 a + (INR i + 1) * (D / Q)))) by lra.
      eapply Rle_trans; [apply Rabs_triang |]. unfold w24 in HE, HS, HI. lra. }
    destruct (PhasorProofs.fadd_R x p F1 Fp) as [E F].
    { apply Rle_lt_trans with (bpow radix2 81); [| apply bpow_lt; lia]. apply rnd32_bound; [| lia]. eapply Rle_trans; [exact HX |]. replace (bpow radix2 81) with (2 * bpow radix2 80) by (change 2 with (bpow radix2 1); rewrite <- bpow_plus; reflexivity). lra. }
    split; [exact F |]. rewrite E. pose proof (rnd_err (R32 x + R32 p)) as HR.
    replace (rnd32 (R32 x + R32 p) - (R32 a + (INR i + 1) * (D / Q))) with
      ((rnd32 (R32 x + R32 p) - (R32 x + R32 p)) + (R32 x + R32 p - (R32 a + (INR i + 1) * (D / Q)))) by lra.
    eapply Rle_trans; [apply Rabs_triang |].
    assert (w24 * Rabs (R32 x + R32 p) <= w24 * (105 / 100 * M)) by (apply Rmult_le_compat_l; [unfold w24; lra | exact HX]).
    unfold w24 in *. lra.
Qed.
Lemma value_bound (i : nat) : INR i <= Q ->
  is_finite (ramp_value a p i) = true /\ Rabs (R32 (ramp_value a p i) - (R32 a + INR i * (D / Q))) <= (INR i + 4) * M * / 4194304.
Proof.
  intros Hi. destruct (value_near i Hi) as [F E]. split; [exact F |]. eapply Rle_trans; [exact E |].
  pose proof (pos_INR i) as Pi. pose proof (e_total (INR i) ltac:(lra)) as HE. rewrite Rmult_plus_distr_l.
  assert (0 <= INR i * M) by (apply Rmult_le_pos; lra). unfold w24 in *. lra.
Qed.
End Line.
