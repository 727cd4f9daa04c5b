(** Facts about the binary32 operations used by the proofs. *)
From Verif Require Import Float32.
From Flocq Require Import Core.
From Coq Require Import Reals Lra.

Notation fexp32 := (SpecFloat.fexp 24 128).
Notation R32 := (@B2R 24 128).

Lemma fmt32 m e : (Z.abs m <= 2 ^ 24)%Z -> (-149 <= e)%Z ->
  generic_format radix2 fexp32 (IZR m * bpow radix2 e).
Proof.
  intros Hm He.
  assert (H : forall m e, (Z.abs m < 2 ^ 24)%Z -> (-149 <= e)%Z ->
     generic_format radix2 fexp32 (IZR m * bpow radix2 e)).
  { intros m' e' H1 H2. apply (generic_format_FLT radix2 (-149) 24).
    exists (Float radix2 m' e'); auto. }
  destruct (Z.eq_dec (Z.abs m) (2 ^ 24)) as [E|E]; [|apply H; lia].
  assert (D : m = (2 ^ 24)%Z \/ m = (- 2 ^ 24)%Z) by lia.
  replace (IZR m * bpow radix2 e)%R with (IZR (m / 2 ^ 24) * bpow radix2 (e + 24))%R.
  - apply H; [destruct D; subst; cbn; lia|lia].
  - rewrite bpow_plus. destruct D; subst; cbn; lra.
Qed.

Lemma small_bpow m e : (Z.abs m <= 2 ^ 24)%Z -> (e <= 100)%Z ->
  (Rabs (IZR m * bpow radix2 e) < bpow radix2 128)%R.
Proof.
  intros Hm He. rewrite Rabs_mult, (Rabs_pos_eq (bpow radix2 e)) by apply bpow_ge_0.
  rewrite <- abs_IZR.
  apply Rle_lt_trans with (bpow radix2 (24 + 100)).
  - rewrite bpow_plus. apply Rmult_le_compat.
    + apply IZR_le. lia. + apply bpow_ge_0.
    + replace (bpow radix2 24) with (IZR (2 ^ 24)) by reflexivity. apply IZR_le. lia.
    + apply bpow_le. lia.
  - apply bpow_lt. lia.
Qed.

Lemma dyadic_exact m e : (Z.abs m <= 2 ^ 24)%Z -> (-149 <= e <= 100)%Z ->
  R32 (fdyadic m e) = (IZR m * bpow radix2 e)%R /\ is_finite (fdyadic m e) = true.
Proof.
  intros Hm He. unfold fdyadic.
  pose proof (binary_normalize_correct 24 128 _ _ mode_NE m e false) as H.
  cbv zeta in H. rewrite round_generic in H; [|apply valid_rnd_N|apply (fmt32 m e); auto; lia].
  rewrite Rlt_bool_true in H; [|apply (small_bpow m e); auto; lia].
  destruct H as (A & B & _). split; auto.
Qed.
Lemma of_int_exact z : (Z.abs z <= 2 ^ 24)%Z -> R32 (of_int z) = IZR z /\ is_finite (of_int z) = true.
Proof.
  intro H. destruct (dyadic_exact z 0 H) as [A B]; [lia|]. split; [|exact B].
  unfold of_int. rewrite A. cbn. lra.
Qed.

Lemma fmul_exact x y m e : is_finite x = true -> is_finite y = true ->
  (R32 x * R32 y = IZR m * bpow radix2 e)%R -> (Z.abs m <= 2 ^ 24)%Z -> (-149 <= e <= 100)%Z ->
  R32 (fmul x y) = (IZR m * bpow radix2 e)%R /\ is_finite (fmul x y) = true.
Proof.
  intros Fx Fy E Hm He. unfold fmul. pose proof (Bmult_correct 24 128 _ _ mode_NE x y) as H.
  rewrite E in H. rewrite round_generic in H; [|apply valid_rnd_N|apply (fmt32 m e); auto; lia].
  rewrite Rlt_bool_true in H; [|apply (small_bpow m e); auto; lia].
  destruct H as (A & B & _). rewrite Fx, Fy in B. split; auto.
Qed.
Lemma fadd_exact x y m e : is_finite x = true -> is_finite y = true ->
  (R32 x + R32 y = IZR m * bpow radix2 e)%R -> (Z.abs m <= 2 ^ 24)%Z -> (-149 <= e <= 100)%Z ->
  R32 (fadd x y) = (IZR m * bpow radix2 e)%R /\ is_finite (fadd x y) = true.
Proof.
  intros Fx Fy E Hm He. unfold fadd. pose proof (Bplus_correct 24 128 _ _ mode_NE x y Fx Fy) as H.
  rewrite E in H. rewrite round_generic in H; [|apply valid_rnd_N|apply (fmt32 m e); auto; lia].
  rewrite Rlt_bool_true in H; [|apply (small_bpow m e); auto; lia].
  destruct H as (A & B & _). split; auto.
Qed.

Lemma trunc_R x : Btrunc x = Ztrunc (R32 x).
Proof.
  apply eq_IZR. rewrite (Btrunc_correct 24 128 _). unfold round, F2R, scaled_mantissa, cexp, FIX_exp. cbn.
  rewrite !Rmult_1_r. reflexivity.
Qed.
