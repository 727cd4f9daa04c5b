(** wrap~, division. *)
From Verif Require Import SndModel SndSpec SndProofs SndProofs2 SndProofs3 Float32Facts.
From Flocq Require Import Core.
From Coq Require Import Reals Lia Lra ZifyBool.
Local Open Scope R_scope.
Notation rnd32 := (round radix2 fexp32 ZnearestE).
Lemma round_exp0 r : round radix2 (FIX_exp 0) Zfloor r = IZR (Zfloor r).
Proof. unfold round, F2R, scaled_mantissa, cexp, FIX_exp. cbn. rewrite !Rmult_1_r. reflexivity. Qed.
Lemma floor_R x : R32 (Bnearbyint mode_DN x) = IZR (Zfloor (R32 x)) /\ (is_finite (Bnearbyint mode_DN x) = is_finite x).
Proof. destruct (Bnearbyint_correct 24 128 _ mode_DN x) as (A & B & _). rewrite A, B. split; auto. apply round_exp0. Qed.
Lemma bpow_le1 : bpow radix2 0 = 1. Proof. reflexivity. Qed.
Lemma rnd_near1 r : Rabs r <= 1 -> Rabs (rnd32 r - r) <= / 33554432.
Proof.
  intro H. destruct (Req_dec r 0) as [->|NZ]; [rewrite round_0 by apply valid_rnd_N; rewrite Rminus_0_r, Rabs_R0; lra|].
  destruct (Rle_lt_dec 1 (Rabs r)) as [L|L].
  - assert (G : rnd32 r = r). { apply round_generic; [apply valid_rnd_N|]. assert (r = 1 \/ r = -1) as [-> | ->] by (destruct (Rcase_abs r); [rewrite Rabs_left in * by lra|rewrite Rabs_right in * by lra]; lra).
      - replace 1 with (IZR 1 * bpow radix2 0) by (cbn; lra). apply fmt32; cbn; lia.
      - replace (-1) with (IZR (-1) * bpow radix2 0) by (cbn; lra). apply fmt32; cbn; lia. }
    rewrite G, Rminus_diag_eq, Rabs_R0 by auto. lra.
  - pose proof (error_le_half_ulp radix2 fexp32 (fun x => negb (Z.even x)) r) as E.
    apply Rle_trans with (1 := E). 
    assert (U : ulp radix2 fexp32 r <= bpow radix2 (-24)).
    { rewrite ulp_neq_0 by auto. apply bpow_le. unfold cexp, SpecFloat.fexp, SpecFloat.emin.
      assert (mag radix2 r <= 0)%Z by (apply mag_le_bpow; auto). lia. }
    replace (bpow radix2 (-24)) with (/ 16777216) in U by reflexivity. lra.
Qed.
Section Machine.
Variable M : machine.
Hypothesis OK : machine_ok M.
Notation F := (enc (t_nan M)).
Lemma wrap_ok x : is_finite x = true ->
  exists y, shows_sample M wrap_sig [x] y /\ 0 <= real y <= 1 /\ within (/ 33554432) y (fractional (real x)).
Proof.
  intro Fx. eexists. split; [eexists; split; [apply wrap_eval|apply vf; auto]|].
  rewrite !vf by auto. unfold real, within, fractional, real.
  destruct (floor_R x) as [A B]. rewrite Fx in B. unfold fsub.
  pose proof (Bminus_correct 24 128 _ _ mode_NE x _ Fx B) as C. rewrite A in C.
  pose proof (Zfloor_lb (R32 x)) as L. pose proof (Zfloor_ub (R32 x)) as U.
  set (r := R32 x - IZR (Zfloor (R32 x))) in *.
  assert (R : 0 <= r <= 1) by (unfold r; lra).
  assert (R1 : 0 <= rnd32 r <= 1).
  { split.
    - rewrite <- (round_0 radix2 fexp32 ZnearestE). apply round_le; try apply valid_rnd_N; [apply fexp_correct; reflexivity|lra].
    - apply round_le_generic; try apply valid_rnd_N; [apply fexp_correct; reflexivity| |lra].
      replace 1 with (IZR 1 * bpow radix2 0) by (cbn; lra). apply fmt32; cbn; lia. }
  rewrite Rlt_bool_true in C.
  2: { change (round_mode mode_NE) with ZnearestE. rewrite Rabs_pos_eq by lra. apply Rle_lt_trans with (bpow radix2 0); [cbn; lra|apply bpow_lt; lia]. }
  destruct C as (C1 & C2 & _). change (round_mode mode_NE) with ZnearestE in C1. rewrite C1. split; [auto|]. split; [auto|].
  apply rnd_near1. rewrite Rabs_pos_eq; lra.
Qed.
End Machine.
