(** Encodings, evaluation of signal patches. *)
From Verif Require Import SndModel Float32Facts.
From Flocq Require Import Core.
From Coq Require Import Reals Lia Lra ZifyBool.
Local Open Scope Z_scope.

Lemma bounded_cases m e : SpecFloat.bounded 24 128 m e = true ->
  (Zpos m < 8388608 /\ e = -149) \/ (8388608 <= Zpos m < 16777216 /\ -149 <= e <= 104).
Proof.
  unfold SpecFloat.bounded, SpecFloat.canonical_mantissa. intro H.
  apply andb_true_iff in H. destruct H as [H1 H2].
  apply Zeq_bool_eq in H1. apply Zle_bool_imp_le in H2.
  assert (D : Zpos (SpecFloat.digits2_pos m) = Zdigits radix2 (Zpos m)) by apply Zpos_digits2_pos.
  rewrite D in H1. pose proof (Zdigits_correct radix2 (Zpos m)) as C.
  unfold SpecFloat.fexp, SpecFloat.emin in H1.
  set (d := Zdigits radix2 (Z.pos m)) in *. change (radix2 : Z) with 2 in C. rewrite Z.abs_eq in C by lia.
  destruct (Z_lt_le_dec d 24).
  - left. assert (e = -149) by lia. split; auto. apply Z.lt_le_trans with (2 ^ d); [lia|].
    change 8388608 with (2 ^ 23). apply Z.pow_le_mono_r; lia.
  - right. assert (d = 24) by lia. subst d. rewrite H in C. change (2 ^ 24) with 16777216 in C. change (2 ^ (24 - 1)) with 8388608 in C. lia.
Qed.
Lemma dyadic_finite m e H : fdyadic (Zpos m) e = B754_finite false m e H.
Proof.
  destruct (bounded_cases m e H) as [C|C].
  all: assert (B : Z.abs (Zpos m) <= 2 ^ 24 /\ -149 <= e <= 104) by (change (2 ^ 24) with 16777216; lia).
  all: apply B2R_Bsign_inj; try reflexivity.
  all: unfold fdyadic; pose proof (binary_normalize_correct 24 128 _ _ mode_NE (Zpos m) e false) as N; cbv zeta in N.
  all: assert (G : F2R (Float radix2 (Zpos m) e) = R32 (B754_finite false m e H)) by reflexivity.
  all: rewrite G in N; rewrite round_generic in N; [|apply valid_rnd_N|apply (generic_format_B2R 24 128)].
  all: rewrite Rlt_bool_true in N by apply abs_B2R_lt_emax; destruct N as (N1 & N2 & N3); auto.
  all: rewrite N3; rewrite Rcompare_Gt; auto; rewrite <- G; apply F2R_gt_0; cbn; lia.
Qed.
Lemma of_bits_parts s E m : 0 <= m < 8388608 -> 0 <= E <= 255 -> forall u, u = (if s : bool then 2147483648 else 0) + E * 8388608 + m ->
  Z.testbit u 31 = s /\ (u / 8388608) mod 256 = E /\ u mod 8388608 = m.
Proof.
  intros Hm HE u ->. repeat split.
  - destruct s.
    + apply Z.testbit_true; [lia|]. change (2 ^ 31) with 2147483648.
      replace (2147483648 + E * 8388608 + m) with (E * 8388608 + m + 1 * 2147483648) by lia. rewrite Z.div_add, Z.div_small by lia. reflexivity.
    + apply Z.testbit_false; [lia|]. change (2 ^ 31) with 2147483648. rewrite Z.div_small by lia. reflexivity.
  - destruct s.
    + replace (2147483648 + E * 8388608 + m) with (m + (E + 256) * 8388608) by lia. rewrite Z.div_add, Z.div_small by lia.
      rewrite Z.add_0_l. rewrite <- (Z.mul_1_l 256) at 1. rewrite Z_mod_plus_full. apply Z.mod_small. lia.
    + replace (0 + E * 8388608 + m) with (m + E * 8388608) by lia. rewrite Z.div_add, Z.div_small by lia.
      rewrite Z.add_0_l. apply Z.mod_small. lia.
  - replace ((if s then 2147483648 else 0) + E * 8388608 + m) with (m + (E + (if s then 256 else 0)) * 8388608) by (destruct s; lia).
    rewrite Z_mod_plus_full. apply Z.mod_small. lia.
Qed.
(** A word is a NaN. *)
Definition nan_word (w : Z) : Prop := of_bits w = B754_nan.
Lemma of_bits_enc nan x : nan_word nan -> of_bits (enc nan x) = x.
Proof.
  intro N. destruct x as [s|s| |s m e H]; cbn [enc].
  - destruct s; apply B2SF_inj; vm_compute; reflexivity.
  - destruct s; vm_compute; reflexivity.
  - exact N.
  - destruct (bounded_cases m e H) as [[C D]|[C D]].
    + replace (Zpos m <? 8388608) with true by lia.
      destruct (of_bits_parts s 0 (Zpos m) ltac:(lia) ltac:(lia) ((if s then 2147483648 else 0) + Zpos m) ltac:(lia)) as (A & B & G).
      unfold of_bits. rewrite A, B, G. change (0 =? 255) with false. change (0 =? 0) with true. cbv zeta.
      change (Z.max 0 1 - 150) with (-149). subst e. cbv iota. rewrite (dyadic_finite m (-149) H). destruct s; reflexivity.
    + replace (Zpos m <? 8388608) with false by lia.
      destruct (of_bits_parts s (e + 150) (Zpos m - 8388608) ltac:(lia) ltac:(lia)
        ((if s then 2147483648 else 0) + ((e + 150) * 8388608 + (Zpos m - 8388608))) ltac:(lia)) as (A & B & G).
      unfold of_bits. rewrite A, B, G. replace (e + 150 =? 255) with false by lia. replace (e + 150 =? 0) with false by lia. cbv zeta.
      replace (Z.max (e + 150) 1 - 150) with e by lia. replace (Zpos m - 8388608 + 8388608) with (Zpos m) by lia.
      rewrite (dyadic_finite m e H). destruct s; reflexivity.
Qed.
