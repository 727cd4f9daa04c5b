(** The integers and the samples of noise~. *)
From Verif Require Import NoiseSpec NoiseProofs Float32Facts RecorderProofs SndProofs5 Float64Facts.
From Coq Require Import Lia Znumtheory Reals Lra.
From Flocq Require Import Core.
Open Scope Z_scope.

Lemma wrap32_range z : -2147483648 <= wrap32 z <= 2147483647.
Proof. unfold wrap32. pose proof (Z.mod_pos_bound (z + 2147483648) 4294967296 ltac:(lia)). lia. Qed.
Lemma wrap32_small z : -2147483648 <= z <= 2147483647 -> wrap32 z = z.
Proof. intros H. unfold wrap32. rewrite Z.mod_small; lia. Qed.
Lemma wrap32_eq x y : wrap32 x = wrap32 y <-> (4294967296 | x - y).
Proof.
  unfold wrap32. split; intros H.
  - apply Z.mod_divide; [lia |]. replace (x - y) with (x + 2147483648 - (y + 2147483648)) by lia.
    rewrite Zminus_mod. replace ((x + 2147483648) mod 4294967296) with ((y + 2147483648) mod 4294967296) by lia. rewrite Z.sub_diag. reflexivity.
  - f_equal. destruct H as [k H]. replace (x + 2147483648) with (y + 2147483648 + k * 4294967296) by lia. apply Z_mod_plus_full.
Qed.
Lemma wrap32_off z : exists k, wrap32 z = z + k * 4294967296.
Proof. unfold wrap32. exists (- ((z + 2147483648) / 4294967296)). pose proof (Z.div_mod (z + 2147483648) 4294967296 ltac:(lia)). lia. Qed.
Lemma wrap32_mul z : wrap32 (wrap32 z * 16807) = wrap32 (z * 16807).
Proof. apply wrap32_eq. destruct (wrap32_off z) as [k ->]. exists (k * 16807). lia. Qed.

(** ** The sample for an integer *)
Definition out (x : Z) : f32 := fmul (of_int x) noise_scale.
Open Scope R_scope.
Lemma of_int_R x : (Z.abs x <= 2147483648)%Z -> R32 (of_int x) = rnd32 (IZR x) /\ is_finite (of_int x) = true.
Proof.
  intros H. unfold of_int.
  pose proof (binary_normalize_correct 24 128 (eq_refl _) (eq_refl _) mode_NE x 0 false) as C.
  assert (E : F2R (Float radix2 x 0) = IZR x) by (unfold F2R; cbn; lra). cbv zeta in C. rewrite E in C.
  rewrite Rlt_bool_true in C; [destruct C as (A & B & _); split; [exact A | exact B] |].
  eapply Rle_lt_trans; [apply (rnd32_bound (IZR x) 31) |]; [| lia | apply bpow_lt; lia].
  rewrite <- abs_IZR. change (bpow radix2 31) with (IZR 2147483648). apply IZR_le. exact H.
Qed.
Lemma scale_R : R32 noise_scale = IZR 16777206 * bpow radix2 (-55) /\ is_finite noise_scale = true.
Proof.
  assert (noise_scale = fdyadic 16777206 (-55)) as -> by (apply B2SF_inj; vm_compute; reflexivity). apply dyadic_exact; lia.
Qed.
Lemma bp55 : bpow radix2 (-55) = / 36028797018963968.
Proof. reflexivity. Qed.
Lemma tiny : 0 < bpow radix2 (-150) <= / 1000000000000.
Proof.
  split; [apply bpow_gt_0 |]. apply Rle_trans with (bpow radix2 (-40)); [apply bpow_le; lia |]. change (bpow radix2 (-40)) with (/ 1099511627776). lra.
Qed.
Lemma out_R x : (Z.abs x <= 2147483648)%Z ->
  is_finite (out x) = true /\ Rabs (R32 (out x)) < 1 /\ Rabs (R32 (out x) - IZR x * R32 noise_scale) <= 129 / 1073741824 /\ (x = 0%Z -> out x = fzero).
Proof.
  intros H. destruct (of_int_R x H) as [Ex Fx]. destruct scale_R as [Ec Fc]. rewrite bp55 in Ec.
  assert (Hx : Rabs (IZR x) <= 2147483648) by (rewrite <- abs_IZR; apply IZR_le; exact H).
  assert (Hr : Rabs (rnd32 (IZR x)) <= 2147483648).
  { change 2147483648 with (bpow radix2 31). apply rnd32_bound; [exact Hx | lia]. }
  assert (Hp : Rabs (R32 (of_int x) * R32 noise_scale) <= 16777206 / 16777216).
  { rewrite Ex, Ec, Rabs_mult, (Rabs_pos_eq (IZR 16777206 * / 36028797018963968)) by lra. nra. }
  destruct (fmul_R (of_int x) noise_scale 0 Fx Fc) as [E F]; [change (bpow radix2 0) with 1; lra | lia |].
  fold (out x) in E, F. split; [exact F |].
  assert (G : Rabs (R32 (out x)) <= 16777206 / 16777216).
  { assert (Q : 16777206 / 16777216 = R32 (fdyadic 16777206 (-24))).
    { destruct (dyadic_exact 16777206 (-24) ltac:(lia) ltac:(lia)) as [-> _]. change (bpow radix2 (-24)) with (/ 16777216). lra. }
    rewrite E. apply Rabs_le. apply Rabs_le_inv in Hp. rewrite Q in *. split.
    - rewrite <- (rnd32_R (fdyadic 16777206 (-24))), <- rnd32_opp. apply round32_le. apply Hp.
    - rewrite <- (rnd32_R (fdyadic 16777206 (-24))). apply round32_le. apply Hp. }
  split; [lra |]. split.
  - assert (A : Rabs (rnd32 (IZR x) - IZR x) <= / 16777216 * Rabs (IZR x) + bpow radix2 (-150)) by exact (rnd_rel (IZR x)).
    assert (B : Rabs (R32 (out x) - R32 (of_int x) * R32 noise_scale) <= / 16777216 * Rabs (R32 (of_int x) * R32 noise_scale) + bpow radix2 (-150)).
    { rewrite E. exact (rnd_rel (R32 (of_int x) * R32 noise_scale)). }
    destruct tiny as [T1 T2]. rewrite Ex in B. rewrite Ex in Hp.
    replace (R32 (out x) - IZR x * R32 noise_scale) with
      (R32 (out x) - rnd32 (IZR x) * R32 noise_scale + (rnd32 (IZR x) - IZR x) * R32 noise_scale) by ring.
    eapply Rle_trans; [apply Rabs_triang |].
    assert (C : Rabs ((rnd32 (IZR x) - IZR x) * R32 noise_scale) <= 129 * R32 noise_scale).
    { rewrite Rabs_mult, (Rabs_pos_eq (R32 noise_scale)) by (rewrite Ec; lra). apply Rmult_le_compat_r; [rewrite Ec; lra | lra]. }
    rewrite Ec in *. lra.
  - intros ->. apply B2SF_inj. vm_compute. reflexivity.
Qed.
(** Different integers with the same sample are close. *)
Lemma out_close x y : (Z.abs x <= 2147483648)%Z -> (Z.abs y <= 2147483648)%Z -> out x = out y -> (Z.abs (x - y) <= 600)%Z.
Proof.
  intros Hx Hy E. destruct (out_R x Hx) as (_ & _ & A & _). destruct (out_R y Hy) as (_ & _ & B & _). rewrite E in A.
  destruct scale_R as [Ec _]. rewrite bp55 in Ec.
  apply le_IZR. rewrite abs_IZR, minus_IZR. apply Rabs_le_inv in A, B. apply Rabs_le. rewrite Ec in *. lra.
Qed.
