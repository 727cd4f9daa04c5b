(** The logarithm of SSE and NEON. *)
From Verif Require Import SndModel SndSpec SndProofs SndProofs2 SndProofs3 SndProofs4 SndProofs5 SndProofs6 Float32Facts.
From Flocq Require Import Core.
From Coq Require Import Reals Lia Lra.
Local Open Scope Z_scope.
Lemma high_bits m k : 0 <= m < 8388608 -> 23 <= k -> Z.testbit m k = false.
Proof.
  intros H K. destruct (Z.eq_dec m 0) as [->|]; [apply Z.testbit_0_l|]. apply Z.bits_above_log2; [lia|].
  apply Z.log2_lt_pow2; [lia|]. apply Z.lt_le_trans with (2 ^ 23); [change (2 ^ 23) with 8388608; lia|apply Z.pow_le_mono_r; lia].
Qed.
Lemma mask_parts E m : 0 <= m < 8388608 -> 0 <= E < 512 ->
  Z.lor (Z.ldiff (E * 8388608 + m) 4286578688) 1065353216 = 1065353216 + m.
Proof.
  intros Hm HE.
  assert (L : Z.ldiff (E * 8388608 + m) 4286578688 = m).
  { apply Z.bits_inj'. intros k K. rewrite Z.ldiff_spec. change 4286578688 with (Z.shiftl (Z.ones 9) 23). rewrite Z.shiftl_spec by lia.
    destruct (Z_lt_le_dec k 23).
    - rewrite (Z.testbit_neg_r _ (k - 23)) by lia. rewrite andb_true_r.
      rewrite <- (Z.mod_pow2_bits_low (E * 8388608 + m) 23 k) by lia. change (2 ^ 23) with 8388608.
      rewrite Z.add_comm, Z_mod_plus_full, Z.mod_small by lia. reflexivity.
    - rewrite (high_bits m k) by lia. destruct (Z_lt_le_dec k 32).
      + rewrite Z.ones_spec_low by lia. apply andb_false_r.
      + rewrite Z.ones_spec_high by lia. rewrite andb_true_r.
        destruct (Z.eq_dec (E * 8388608 + m) 0) as [->|]; [apply Z.testbit_0_l|]. apply Z.bits_above_log2; [lia|].
        apply Z.log2_lt_pow2; [lia|]. apply Z.lt_le_trans with (2 ^ 32); [change (2 ^ 32) with 4294967296; lia|apply Z.pow_le_mono_r; lia]. }
  rewrite L. assert (N : Z.land m 1065353216 = 0).
  { apply Z.bits_inj'. intros k K. rewrite Z.land_spec, Z.testbit_0_l. change 1065353216 with (Z.shiftl 127 23). rewrite Z.shiftl_spec by lia.
    destruct (Z_lt_le_dec k 23); [rewrite (Z.testbit_neg_r _ (k - 23)) by lia; apply andb_false_r|rewrite (high_bits m k) by lia; reflexivity]. }
  rewrite <- Z.lxor_lor, <- Z.add_nocarry_lxor by auto. lia.
Qed.
Lemma mantissa_value m : 0 <= m < 8388608 -> R32 (of_bits (1065353216 + m)) = (1 + IZR m / 8388608)%R /\ is_finite (of_bits (1065353216 + m)) = true.
Proof.
  intro H. destruct (of_bits_parts false 127 m H ltac:(lia) (1065353216 + m) ltac:(lia)) as (A & B & C).
  unfold of_bits. rewrite A, B, C. change (127 =? 255) with false. change (127 =? 0) with false. cbv zeta. cbv iota.
  change (Z.max 127 1 - 150) with (-23). destruct (dyadic_exact (m + 8388608) (-23)) as [D F]; [change (2 ^ 24) with 16777216; lia|lia|].
  split; auto. rewrite D. rewrite plus_IZR. replace (bpow radix2 (-23)) with (/ 8388608)%R by reflexivity. field.
Qed.
(** The parts of a positive normal number. *)
Lemma normal_parts nan x : is_finite x = true -> (bpow radix2 (-126) <= R32 x)%R -> exists E m, enc nan x = E * 8388608 + m /\ 0 <= m < 8388608 /\ 1 <= E <= 254 /\
  R32 x = ((1 + IZR m / 8388608) * bpow radix2 (E - 127))%R.
Proof.
  intros F B. destruct x as [s|s| |s m e H]; try discriminate.
  { cbn in B. pose proof (bpow_gt_0 radix2 (-126)). cbn in *. lra. }
  destruct s. { pose proof (bpow_gt_0 radix2 (-126)). cbn [B2R cond_Zopp] in B. assert (F2R (Float radix2 (- Z.pos m) e) < 0)%R by (apply F2R_lt_0; cbn; lia). lra. }
  destruct (bounded_cases m e H) as [[C D]|[C D]].
  - subst e. exfalso. cbn [B2R cond_Zopp] in B. unfold F2R in B. cbn [Fnum Fexp] in B.
    assert (IZR (Z.pos m) * bpow radix2 (-149) < bpow radix2 (-126))%R; [|lra].
    change (-126) with (23 + -149). rewrite bpow_plus. apply Rmult_lt_compat_r; [apply bpow_gt_0|]. replace (bpow radix2 23) with (IZR 8388608) by reflexivity. apply IZR_lt; lia.
  - exists (e + 150), (Z.pos m - 8388608). cbn [enc]. replace (Z.pos m <? 8388608) with false by (symmetry; apply Z.ltb_ge; lia).
    split; [lia|]. split; [lia|]. split; [lia|]. cbn [B2R cond_Zopp]. unfold F2R. cbn [Fnum Fexp]. rewrite minus_IZR.
    replace (e + 150 - 127) with (23 + e) by lia. rewrite bpow_plus. replace (bpow radix2 23) with 8388608%R by reflexivity. field.
Qed.
(** The binary logarithm. *)
Local Open Scope R_scope.
Notation lg := log_2.
Lemma ln2_pos : 0 < ln 2. Proof. rewrite <- ln_1. apply ln_increasing; lra. Qed.
Lemma ln_le_sub1 y : 0 < y -> ln y <= y - 1.
Proof.
  intro H. pose proof (exp_ineq1_le (ln y)) as E. rewrite exp_ln in E by auto. lra.
Qed.
Lemma lg_mult a b : 0 < a -> 0 < b -> lg (a * b) = lg a + lg b.
Proof. intros A B. unfold log_2. rewrite ln_mult by auto. field. pose proof ln2_pos. lra. Qed.
Lemma lg_bpow n : lg (bpow radix2 n) = IZR n.
Proof.
  unfold log_2. rewrite bpow_powerRZ. change (IZR radix2) with 2. rewrite powerRZ_Rpower by lra. unfold Rpower. rewrite ln_exp. field. pose proof ln2_pos. lra.
Qed.
Lemma lg_lower m : 0 <= m <= 1 -> m <= lg (1 + m).
Proof.
  intro H. pose proof ln2_pos as P. unfold log_2. apply Rmult_le_reg_r with (ln 2); auto.
  replace (ln (1 + m) / ln 2 * ln 2) with (ln (1 + m)) by (field; lra).
  assert (A : ln (/ (1 + m)) <= / (1 + m) - 1) by (apply ln_le_sub1, Rinv_0_lt_compat; lra).
  assert (B : ln (2 * / (1 + m)) <= 2 * / (1 + m) - 1) by (apply ln_le_sub1, Rmult_lt_0_compat; [lra|apply Rinv_0_lt_compat; lra]).
  rewrite ln_mult in B by (try lra; apply Rinv_0_lt_compat; lra). rewrite ln_Rinv in A, B by lra.
  assert (C : (1 - m) * - ln (1 + m) + m * (ln 2 + - ln (1 + m)) <= (1 - m) * (/ (1 + m) - 1) + m * (2 * / (1 + m) - 1)).
  { apply Rplus_le_compat; apply Rmult_le_compat_l; lra. }
  replace ((1 - m) * (/ (1 + m) - 1) + m * (2 * / (1 + m) - 1)) with 0 in C by (field; lra). lra.
Qed.
(** exp by repeated squaring. *)
Lemma exp_double a b x : 0 <= a -> a <= exp x -> b <= a * a -> b <= exp (2 * x).
Proof. intros A B C. replace (2 * x) with (x + x) by ring. rewrite exp_plus. apply Rle_trans with (1 := C). apply Rmult_le_compat; auto. Qed.
Lemma exp_start x : 1 + x <= exp x. Proof. apply exp_ineq1_le. Qed.
Lemma exp_m693 : 0.5 <= exp (- 0.693).
Proof.
  assert (H0 : 0.99983081054 <= exp (- 0.693 / 4096)) by (eapply Rle_trans; [|apply exp_start]; lra).
  assert (H1 : 0.9996616497 <= exp (- 0.693 / 2048)) by (replace (- 0.693 / 2048) with (2 * (- 0.693 / 4096)) by field; apply (exp_double 0.99983081054); [lra|exact H0|lra]).
  assert (H2 : 0.99932341388 <= exp (- 0.693 / 1024)) by (replace (- 0.693 / 1024) with (2 * (- 0.693 / 2048)) by field; apply (exp_double 0.9996616497); [lra|exact H1|lra]).
  assert (H3 : 0.99864728552 <= exp (- 0.693 / 512)) by (replace (- 0.693 / 512) with (2 * (- 0.693 / 1024)) by field; apply (exp_double 0.99932341388); [lra|exact H2|lra]).
  assert (H4 : 0.99729640087 <= exp (- 0.693 / 256)) by (replace (- 0.693 / 256) with (2 * (- 0.693 / 512)) by field; apply (exp_double 0.99864728552); [lra|exact H3|lra]).
  assert (H5 : 0.99460011118 <= exp (- 0.693 / 128)) by (replace (- 0.693 / 128) with (2 * (- 0.693 / 256)) by field; apply (exp_double 0.99729640087); [lra|exact H4|lra]).
  assert (H6 : 0.98922938115 <= exp (- 0.693 / 64)) by (replace (- 0.693 / 64) with (2 * (- 0.693 / 128)) by field; apply (exp_double 0.99460011118); [lra|exact H5|lra]).
  assert (H7 : 0.97857476853 <= exp (- 0.693 / 32)) by (replace (- 0.693 / 32) with (2 * (- 0.693 / 64)) by field; apply (exp_double 0.98922938115); [lra|exact H6|lra]).
  assert (H8 : 0.9576085776 <= exp (- 0.693 / 16)) by (replace (- 0.693 / 16) with (2 * (- 0.693 / 32)) by field; apply (exp_double 0.97857476853); [lra|exact H7|lra]).
  assert (H9 : 0.91701418789 <= exp (- 0.693 / 8)) by (replace (- 0.693 / 8) with (2 * (- 0.693 / 16)) by field; apply (exp_double 0.9576085776); [lra|exact H8|lra]).
  assert (H10 : 0.84091502079 <= exp (- 0.693 / 4)) by (replace (- 0.693 / 4) with (2 * (- 0.693 / 8)) by field; apply (exp_double 0.91701418789); [lra|exact H9|lra]).
  assert (H11 : 0.70713807219 <= exp (- 0.693 / 2)) by (replace (- 0.693 / 2) with (2 * (- 0.693 / 4)) by field; apply (exp_double 0.84091502079); [lra|exact H10|lra]).
  assert (H12 : 0.50004425314 <= exp (- 0.693 / 1)) by (replace (- 0.693 / 1) with (2 * (- 0.693 / 2)) by field; apply (exp_double 0.70713807219); [lra|exact H11|lra]).
  replace (- 0.693) with (- 0.693 / 1) by field. apply Rle_trans with (2 := H12). lra.
Qed.
Lemma exp_6933 : 2 <= exp (0.6933).
Proof.
  assert (H0 : 1.00016926269 <= exp (0.6933 / 4096)) by (eapply Rle_trans; [|apply exp_start]; lra).
  assert (H1 : 1.00033855402 <= exp (0.6933 / 2048)) by (replace (0.6933 / 2048) with (2 * (0.6933 / 4096)) by field; apply (exp_double 1.00016926269); [lra|exact H0|lra]).
  assert (H2 : 1.00067722265 <= exp (0.6933 / 1024)) by (replace (0.6933 / 1024) with (2 * (0.6933 / 2048)) by field; apply (exp_double 1.00033855402); [lra|exact H1|lra]).
  assert (H3 : 1.00135490393 <= exp (0.6933 / 512)) by (replace (0.6933 / 512) with (2 * (0.6933 / 1024)) by field; apply (exp_double 1.00067722265); [lra|exact H2|lra]).
  assert (H4 : 1.00271164362 <= exp (0.6933 / 256)) by (replace (0.6933 / 256) with (2 * (0.6933 / 512)) by field; apply (exp_double 1.00135490393); [lra|exact H3|lra]).
  assert (H5 : 1.00543064025 <= exp (0.6933 / 128)) by (replace (0.6933 / 128) with (2 * (0.6933 / 256)) by field; apply (exp_double 1.00271164362); [lra|exact H4|lra]).
  assert (H6 : 1.01089077235 <= exp (0.6933 / 64)) by (replace (0.6933 / 64) with (2 * (0.6933 / 128)) by field; apply (exp_double 1.00543064025); [lra|exact H5|lra]).
  assert (H7 : 1.02190015362 <= exp (0.6933 / 32)) by (replace (0.6933 / 32) with (2 * (0.6933 / 64)) by field; apply (exp_double 1.01089077235); [lra|exact H6|lra]).
  assert (H8 : 1.04427992396 <= exp (0.6933 / 16)) by (replace (0.6933 / 16) with (2 * (0.6933 / 32)) by field; apply (exp_double 1.02190015362); [lra|exact H7|lra]).
  assert (H9 : 1.09052055958 <= exp (0.6933 / 8)) by (replace (0.6933 / 8) with (2 * (0.6933 / 16)) by field; apply (exp_double 1.04427992396); [lra|exact H8|lra]).
  assert (H10 : 1.18923509086 <= exp (0.6933 / 4)) by (replace (0.6933 / 4) with (2 * (0.6933 / 8)) by field; apply (exp_double 1.09052055958); [lra|exact H9|lra]).
  assert (H11 : 1.41428010133 <= exp (0.6933 / 2)) by (replace (0.6933 / 2) with (2 * (0.6933 / 4)) by field; apply (exp_double 1.18923509086); [lra|exact H10|lra]).
  assert (H12 : 2.00018820501 <= exp (0.6933 / 1)) by (replace (0.6933 / 1) with (2 * (0.6933 / 2)) by field; apply (exp_double 1.41428010133); [lra|exact H11|lra]).
  replace (0.6933) with (0.6933 / 1) by field. apply Rle_trans with (2 := H12). lra.
Qed.
Lemma exp_3667 : 1.4427 <= exp (0.3667).
Proof.
  assert (H0 : 1.00008952636 <= exp (0.3667 / 4096)) by (eapply Rle_trans; [|apply exp_start]; lra).
  assert (H1 : 1.00017906073 <= exp (0.3667 / 2048)) by (replace (0.3667 / 2048) with (2 * (0.3667 / 4096)) by field; apply (exp_double 1.00008952636); [lra|exact H0|lra]).
  assert (H2 : 1.00035815352 <= exp (0.3667 / 1024)) by (replace (0.3667 / 1024) with (2 * (0.3667 / 2048)) by field; apply (exp_double 1.00017906073); [lra|exact H1|lra]).
  assert (H3 : 1.00071643531 <= exp (0.3667 / 512)) by (replace (0.3667 / 512) with (2 * (0.3667 / 1024)) by field; apply (exp_double 1.00035815352); [lra|exact H2|lra]).
  assert (H4 : 1.00143338389 <= exp (0.3667 / 256)) by (replace (0.3667 / 256) with (2 * (0.3667 / 512)) by field; apply (exp_double 1.00071643531); [lra|exact H3|lra]).
  assert (H5 : 1.00286882236 <= exp (0.3667 / 128)) by (replace (0.3667 / 128) with (2 * (0.3667 / 256)) by field; apply (exp_double 1.00143338389); [lra|exact H4|lra]).
  assert (H6 : 1.00574587486 <= exp (0.3667 / 64)) by (replace (0.3667 / 64) with (2 * (0.3667 / 128)) by field; apply (exp_double 1.00286882236); [lra|exact H5|lra]).
  assert (H7 : 1.01152476479 <= exp (0.3667 / 32)) by (replace (0.3667 / 32) with (2 * (0.3667 / 64)) by field; apply (exp_double 1.00574587486); [lra|exact H6|lra]).
  assert (H8 : 1.02318234978 <= exp (0.3667 / 16)) by (replace (0.3667 / 16) with (2 * (0.3667 / 32)) by field; apply (exp_double 1.01152476479); [lra|exact H7|lra]).
  assert (H9 : 1.0469021209 <= exp (0.3667 / 8)) by (replace (0.3667 / 8) with (2 * (0.3667 / 16)) by field; apply (exp_double 1.02318234978); [lra|exact H8|lra]).
  assert (H10 : 1.09600405074 <= exp (0.3667 / 4)) by (replace (0.3667 / 4) with (2 * (0.3667 / 8)) by field; apply (exp_double 1.0469021209); [lra|exact H9|lra]).
  assert (H11 : 1.20122487923 <= exp (0.3667 / 2)) by (replace (0.3667 / 2) with (2 * (0.3667 / 4)) by field; apply (exp_double 1.09600405074); [lra|exact H10|lra]).
  assert (H12 : 1.44294121048 <= exp (0.3667 / 1)) by (replace (0.3667 / 1) with (2 * (0.3667 / 2)) by field; apply (exp_double 1.20122487923); [lra|exact H11|lra]).
  replace (0.3667) with (0.3667 / 1) by field. apply Rle_trans with (2 := H12). lra.
Qed.
Lemma ln2_bounds : 0.693 <= ln 2 <= 0.6933.
Proof.
  split.
  - pose proof exp_m693 as E. assert (L : ln 0.5 <= ln (exp (- 0.693))) by (destruct (Rle_lt_or_eq_dec _ _ E) as [L|<-]; [left; apply ln_increasing; lra|lra]).
    rewrite ln_exp in L. replace 0.5 with (/ 2) in L by lra. rewrite ln_Rinv in L by lra. lra.
  - pose proof exp_6933 as E. assert (L : ln 2 <= ln (exp 0.6933)) by (destruct (Rle_lt_or_eq_dec _ _ E) as [L|<-]; [left; apply ln_increasing; lra|lra]).
    rewrite ln_exp in L. lra.
Qed.
Lemma lg_upper m : 0 <= m <= 1 -> lg (1 + m) <= m + 0.0866.
Proof.
  intro H. pose proof ln2_bounds as P. unfold log_2. apply Rmult_le_reg_r with (ln 2); [lra|].
  replace (ln (1 + m) / ln 2 * ln 2) with (ln (1 + m)) by (field; lra).
  assert (C : ln 1.4427 <= 0.3667).
  { rewrite <- (ln_exp 0.3667). pose proof exp_3667 as E. destruct (Rle_lt_or_eq_dec _ _ E) as [L|<-]; [left; apply ln_increasing; lra|lra]. }
  assert (A : ln ((1 + m) * / 1.4427) <= (1 + m) * / 1.4427 - 1) by (apply ln_le_sub1, Rmult_lt_0_compat; lra).
  rewrite ln_mult, ln_Rinv in A by lra.
  assert (B : (m + 0.0866) * 0.693 <= (m + 0.0866) * ln 2) by (apply Rmult_le_compat_l; lra). lra.
Qed.
Lemma c_sigma : near (decimal (-9569643) 7) (-0.9569643) (/ 20000000). Proof. constant. Qed.
Lemma fast_log nan x : is_finite x = true -> bpow radix2 (-126) <= R32 x ->
  exists E m, enc nan x = (E * 8388608 + m)%Z /\ (0 <= m < 8388608)%Z /\ (1 <= E <= 254)%Z /\
  near (fadd (fadd (of_int (E - 127)) (of_bits (1065353216 + m))) (decimal (-9569643) 7)) (lg (R32 x)) 0.0436.
Proof.
  intros F B. destruct (normal_parts nan x F B) as (E & m & A & Hm & HE & V). exists E, m. repeat (split; [auto; lia|]).
  destruct (of_int_exact (E - 127)) as [C1 C2]; [change (2 ^ 24)%Z with 16777216%Z; lia|].
  destruct (mantissa_value m Hm) as [D1 D2].
  set (t := IZR m / 8388608) in *.
  assert (T : 0 <= t <= 1). { unfold t. assert (0 <= IZR m <= 8388608) by (split; apply IZR_le; lia). lra. }
  assert (L : lg (R32 x) = lg (1 + t) + IZR (E - 127)). { rewrite V, lg_mult, lg_bpow by (try lra; apply bpow_gt_0). reflexivity. }
  assert (N : Rabs (IZR (E - 127)) <= 127) by (rewrite <- abs_IZR; apply IZR_le; lia). apply Rabs_le_inv in N.
  pose proof (lg_lower t T). pose proof (lg_upper t T).
  assert (N1 : near (fadd (of_int (E - 127)) (of_bits (1065353216 + m))) (IZR (E - 127) + (1 + t)) 0.000008).
  { eapply near_add with (A := 129) (d := 0) (e := 0); [split; auto; rewrite C1, Rminus_diag_eq, Rabs_R0 by auto; lra|
      split; auto; rewrite D1, Rminus_diag_eq, Rabs_R0 by auto; lra|apply Rabs_le; lra|lra|unfold u; lra]. }
  assert (N2 : near (fadd (fadd (of_int (E - 127)) (of_bits (1065353216 + m))) (decimal (-9569643) 7)) (IZR (E - 127) + (1 + t) + -0.9569643) 0.000017).
  { eapply near_add with (A := 129); [exact N1|exact c_sigma|apply Rabs_le; lra|lra|unfold u; lra]. }
  destruct N2 as [G1 G2]. split; auto. apply Rabs_le_inv in G2. apply Rabs_le. rewrite L. lra.
Qed.
Section Machine.
Variable M : machine.
Hypothesis OK : machine_ok M.
Notation F := (enc (t_nan M)).
Lemma log2_ok x : fast_arch M -> is_finite x = true -> bpow radix2 (-126) <= R32 x ->
  exists y, hv_log2 M (F x) = Ok (F y) /\ near y (lg (R32 x)) 0.0436.
Proof.
  intros A Fx B. destruct (fast_log (t_nan M) x Fx B) as (E & m & W & Hm & HE & N).
  eexists. split; [|exact N]. unfold hv_log2. rewrite W. rewrite mask_parts by lia.
  replace ((E * 8388608 + m <? 2147483648)%Z) with true by (symmetry; apply Z.ltb_lt; lia).
  replace ((E * 8388608 + m) / 8388608)%Z with E by (rewrite Z.add_comm, Z.div_add, Z.div_small by lia; lia).
  destruct A as [-> | [-> | ->]]; reflexivity.
Qed.
End Machine.
