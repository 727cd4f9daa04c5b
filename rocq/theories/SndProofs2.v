(** Bitwise operations; the evaluation of the patches. *)
From Verif Require Import SndModel SndSpec SndProofs Float32Facts.
From Flocq Require Import Core.
From Coq Require Import Reals Lia Lra ZifyBool.
Local Open Scope Z_scope.

Definition is_word (w : Z) := 0 <= w < 4294967296.
Lemma word_parts w : is_word w -> exists (s : bool) E m, 0 <= m < 8388608 /\ 0 <= E <= 255 /\
  w = (if s then 2147483648 else 0) + E * 8388608 + m.
Proof.
  unfold is_word. intro H. exists (2147483648 <=? w), ((w / 8388608) mod 256), (w mod 8388608).
  pose proof (Z.div_mod w 8388608 ltac:(lia)). pose proof (Z.mod_pos_bound w 8388608 ltac:(lia)).
  pose proof (Z.div_mod (w / 8388608) 256 ltac:(lia)). pose proof (Z.mod_pos_bound (w / 8388608) 256 ltac:(lia)).
  split; [lia|]. split; [lia|].
  assert (w / 8388608 / 256 = if 2147483648 <=? w then 1 else 0).
  { rewrite Z.div_div by lia. change (8388608 * 256) with 2147483648. destruct (2147483648 <=? w) eqn:Q.
    - symmetry. apply Z.div_unique with (w - 2147483648); lia.
    - apply Z.div_small; lia. }
  destruct (2147483648 <=? w); lia.
Qed.
Lemma enc_word nan x : is_word nan -> is_word (enc nan x).
Proof.
  unfold is_word. intro N. destruct x as [s|s| |s m e H]; cbn [enc]; try (destruct s; lia); auto.
  destruct (bounded_cases m e H) as [[C D]|[C D]].
  - replace (Z.pos m <? 8388608) with true by lia. destruct s; lia.
  - replace (Z.pos m <? 8388608) with false by lia. destruct s; lia.
Qed.
Lemma dyadic_abs m e : 0 <= m < 2 ^ 24 -> -149 <= e <= 104 -> fabs (fdyadic m e) = fdyadic m e.
Proof.
  intros Hm He. unfold fdyadic. pose proof (binary_normalize_correct 24 128 _ _ mode_NE m e false) as N. cbv zeta in N.
  rewrite round_generic in N; [|apply valid_rnd_N|apply (fmt32 m e); lia].
  assert (B : (Rabs (IZR m * bpow radix2 e) < bpow radix2 128)%R).
  { rewrite Rabs_mult, (Rabs_pos_eq (bpow radix2 e)) by apply bpow_ge_0. rewrite <- abs_IZR.
    change 128 with (24 + 104). rewrite bpow_plus. apply Rlt_le_trans with (bpow radix2 24 * bpow radix2 e)%R.
    - apply Rmult_lt_compat_r; [apply bpow_gt_0|]. replace (bpow radix2 24) with (IZR (2 ^ 24)) by reflexivity. apply IZR_lt. lia.
    - apply Rmult_le_compat_l; [apply bpow_ge_0|apply bpow_le; lia]. }
  rewrite Rlt_bool_true in N by exact B. destruct N as (N1 & N2 & N3).
  set (x := binary_normalize 24 128 _ _ mode_NE m e false) in *.
  assert (S : Bsign x = false).
  { rewrite N3. assert (G : (0 <= F2R (Float radix2 m e))%R) by (apply F2R_ge_0; cbn; lia).
    destruct (Rcompare_spec (F2R (Float radix2 m e)) 0); auto. lra. }
  unfold fabs. destruct x as [t|t| |t p q r]; cbn in S, N2; subst; try discriminate; reflexivity.
Qed.
Lemma clear_sign w : is_word w -> is_word (Z.ldiff w 2147483648) /\ of_bits (Z.ldiff w 2147483648) = fabs (of_bits w).
Proof.
  intro H. destruct (word_parts w H) as (s & E & m & Hm & HE & Q).
  assert (L : Z.ldiff w 2147483648 = E * 8388608 + m).
  { set (r := E * 8388608 + m) in *. assert (0 <= r < 2147483648) by lia.
    apply Z.bits_inj'. intros k Hk. rewrite Z.ldiff_spec. change 2147483648 with (2 ^ 31). rewrite Z.pow2_bits_eqb by lia.
    destruct (31 =? k) eqn:K.
    - assert (k = 31) by lia. subst k. rewrite andb_false_r. symmetry. apply Z.testbit_false; [lia|].
      rewrite Z.div_small by (change (2 ^ 31) with 2147483648; lia). reflexivity.
    - rewrite andb_true_r. destruct s.
      + rewrite Q. replace (2147483648 + E * 8388608 + m) with (r + 1 * 2 ^ 31) by (unfold r; lia).
        destruct (Z_lt_le_dec k 31).
        * rewrite <- (Z.mod_pow2_bits_low (r + 1 * 2 ^ 31) 31 k) by lia. rewrite Z_mod_plus_full.
          rewrite Z.mod_pow2_bits_low by lia. reflexivity.
        * rewrite !Z.testbit_odd, !Z.shiftr_div_pow2 by lia. rewrite !Z.div_small; auto.
          -- split; [lia|]. apply Z.lt_le_trans with (2 ^ 31); [change (2 ^ 31) with 2147483648; lia|apply Z.pow_le_mono_r; lia].
          -- change (1 * 2 ^ 31) with 2147483648. split; [lia|]. apply Z.lt_le_trans with (2 ^ 32); [change (2 ^ 32) with 4294967296; lia|apply Z.pow_le_mono_r; lia].
      + rewrite Q. f_equal. }
  rewrite L. unfold is_word in *. split; [lia|].
  destruct (of_bits_parts s E m Hm HE w Q) as (A & B & C).
  destruct (of_bits_parts false E m Hm HE (E * 8388608 + m) ltac:(lia)) as (A' & B' & C').
  unfold of_bits. rewrite A, B, C, A', B', C'. cbv zeta.
  destruct (E =? 255) eqn:X; [destruct (m =? 0); reflexivity|].
  assert (D : fabs (fdyadic (if E =? 0 then m else m + 8388608) (Z.max E 1 - 150)) = fdyadic (if E =? 0 then m else m + 8388608) (Z.max E 1 - 150)).
  { apply dyadic_abs; [destruct (E =? 0); change (2 ^ 24) with 16777216; lia|lia]. }
  destruct s; unfold fabs in *; [rewrite Babs_Bopp|]; auto.
Qed.
Lemma ldiff_ones w : is_word w -> Z.ldiff w 4294967295 = 0.
Proof.
  unfold is_word. intro H. change 4294967295 with (Z.ones 32). rewrite Z.ldiff_ones_r by lia.
  rewrite Z.shiftr_div_pow2 by lia. change (2 ^ 32) with 4294967296. rewrite Z.div_small by lia. reflexivity.
Qed.
Lemma land_ones w : is_word w -> Z.land w 4294967295 = w.
Proof.
  unfold is_word. intro H. change 4294967295 with (Z.ones 32). rewrite Z.land_ones by lia. change (2 ^ 32) with 4294967296.
  apply Z.mod_small. lia.
Qed.
Lemma ldiff_mask w b : is_word w -> Z.ldiff w (mask b) = if b then 0 else w.
Proof. intro H. destruct b; cbn [mask]; [apply ldiff_ones; auto|apply Z.ldiff_0_r]. Qed.
Lemma land_mask w b : is_word w -> Z.land w (mask b) = if b then w else 0.
Proof. intro H. destruct b; cbn [mask]; [apply land_ones; auto|apply Z.land_0_r]. Qed.

Section Machine.
Variable M : machine.
Hypothesis OK : machine_ok M.
Notation F := (enc (t_nan M)).
Notation V := of_bits.
Lemma vf x : V (F x) = x.
Proof. apply of_bits_enc, OK. Qed.
Lemma fw x : is_word (F x).
Proof. apply enc_word. destruct OK as [[A B] _]. change (2 ^ 32) with 4294967296 in B. unfold is_word. lia. Qed.
Lemma v_abs w : is_word w -> V (hv_abs M w) = fabs (V w).
Proof. intro H. unfold hv_abs. destruct (t_arch M); try apply vf; apply clear_sign; auto. Qed.
Lemma abs_word w : is_word w -> is_word (hv_abs M w).
Proof. intro H. unfold hv_abs. destruct (t_arch M); try apply fw; apply clear_sign; auto. Qed.
End Machine.
