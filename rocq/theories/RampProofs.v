(** line: the arithmetic. *)
From Verif Require Import PatchProofs PatchProofs2 PatchProofs3 PatchProofs4 PatchProofs7 PatchProofs8 RampSpec Float32Facts Float64Facts EnvProofs3 PhasorProofs.
From Coq Require Import Lia Reals Lra.
From Flocq Require Import Core.
Open Scope Z_scope.

Lemma fadd_zero v : v <> B754_zero true -> fadd v (of_int 0) = v.
Proof. intros H. destruct v as [[|] | s | | s m e B]; [contradiction | reflexivity | destruct s; reflexivity | reflexivity | reflexivity]. Qed.
Lemma fsub_whole a b : Z.abs a <= 2 ^ 24 -> Z.abs b <= 2 ^ 24 -> Z.abs (a - b) <= 2 ^ 24 -> 0 <= a -> 0 <= b -> fsub (of_int a) (of_int b) = of_int (a - b).
Proof.
  intros Ha Hb Hab Pa Pb. destruct (of_int_exact a) as [A1 A2]; [lia |]. destruct (of_int_exact b) as [B1 B2]; [lia |].
  destruct (fsub_exact (of_int a) (of_int b) (a - b) 0 A2 B2) as [C1 C2]; [rewrite A1, B1, minus_IZR; cbn; lra | lia | lia |].
  apply of_int_unique; [lia | exact C2 | rewrite C1; cbn; lra |].
  intros H. assert (a = b) by lia. subst b.
  unfold fsub. pose proof (Bminus_correct 24 128 _ _ mode_NE (of_int a) (of_int a) A2 A2) as D.
  replace (R32 (of_int a) - R32 (of_int a))%R with 0%R in D by lra. rewrite round_0, Rabs_R0 in D by apply valid_rnd_round_mode.
  rewrite Rlt_bool_true in D by apply bpow_gt_0. destruct D as (_ & _ & D). rewrite Rcompare_Eq in D by reflexivity.
  rewrite D. destruct (Bsign (of_int a)); reflexivity.
Qed.
(** A time in samples. *)
Lemma samples_exact E q ms : whole_rate (e_sr E) (1000 * q) -> 1 <= q <= 1000 -> ramp_ms q ms ->
  fdiv (fmul (of_int ms) (narrow (e_sr E))) (of_int 1000) = of_int (ms * q).
Proof.
  intros Hr Hq [H0 H1]. destruct (rate_narrow _ _ Hr) as [A1 A2]; [lia |].
  destruct (of_int_exact ms) as [B1 B2]; [nia |]. destruct (of_int_exact 1000) as [C1 C2]; [lia |].
  destruct (fmul_exact (of_int ms) (narrow (e_sr E)) (125 * q * ms) 3 B2 A2) as [D1 D2]; [| nia | lia |].
  { rewrite A1, B1, !mult_IZR. cbn. lra. }
  destruct (fdiv_exact (fmul (of_int ms) (narrow (e_sr E))) (of_int 1000) (ms * q) 0 D2 C2) as [E1 E2]; [rewrite C1; lra | | nia | lia |].
  { rewrite D1, C1, !mult_IZR. cbn. lra. }
  apply of_int_unique; [nia | exact E2 | rewrite E1; cbn; lra |].
  intros Hz. assert (ms = 0) by nia. subst ms. clear - A1 A2 Hq. change (of_int 0) with fzero.
  assert (P : (0 < R32 (narrow (e_sr E)))%R) by (rewrite A1; apply IZR_lt; lia).
  destruct (narrow (e_sr E)) as [s | s | | s m e B]; try discriminate A2; [cbn in P; lra |].
  destruct s; [exfalso | reflexivity]. revert P. unfold B2R, F2R. cbn [Fnum Fexp cond_Zopp Z.opp].
  pose proof (bpow_gt_0 radix2 e). pose proof (IZR_lt 0 (Zpos m) eq_refl). change (IZR (Zneg m)) with (- IZR (Zpos m))%R.
  pose proof (Rmult_lt_0_compat _ _ H0 H). lra.
Qed.
(** The encoding of a number from 1 on. *)
Lemma bits_large nan x : is_finite x = true -> (1 <= R32 x)%R -> 1000000000 <= float_bits nan x.
Proof.
  intros Fx Hx. destruct x as [s | s | | s m e B]; try discriminate Fx; [cbn in Hx; lra |].
  destruct s.
  { exfalso. revert Hx. unfold B2R, F2R. cbn [Fnum Fexp cond_Zopp Z.opp]. pose proof (bpow_gt_0 radix2 e). pose proof (IZR_lt 0 (Zpos m) eq_refl).
    change (IZR (Zneg m)) with (- IZR (Zpos m))%R. pose proof (Rmult_lt_0_compat _ _ H0 H). lra. }
  assert (Hm : Zpos m < 2 ^ 24 /\ (e <> -149 -> 2 ^ 23 <= Zpos m)).
  { pose proof B as B'. unfold bounded in B'. apply andb_prop in B' as [B1 _]. apply canonical_canonical_mantissa with (sx := false) in B1.
    split.
      unfold canonical in B1. cbn [Fexp] in B1. unfold cexp in B1. unfold SpecFloat.fexp, SpecFloat.emin in B1. 
      rewrite mag_F2R_Zdigits in B1 by (cbn; lia). cbn [cond_Zopp] in B1.
      pose proof (Zdigits_correct radix2 (Zpos m)) as [_ D]. cbn [Z.abs] in D. eapply Z.lt_le_trans; [exact D |].
      change (Z.pow radix2) with (Z.pow 2). apply Z.pow_le_mono_r; lia.
    - intros Ne. unfold canonical in B1. cbn [Fexp] in B1. unfold cexp in B1. unfold SpecFloat.fexp, SpecFloat.emin in B1. 
      rewrite mag_F2R_Zdigits in B1 by (cbn; lia). cbn [cond_Zopp] in B1.
      pose proof (Zdigits_correct radix2 (Zpos m)) as [D _]. cbn [Z.abs] in D.
      eapply Z.le_trans; [| exact D]. change (Z.pow radix2) with (Z.pow 2). apply Z.pow_le_mono_r; lia. }
  destruct Hm as [M1 M2].
  assert (He : -23 <= e).
  { destruct (Z_le_gt_dec (-23) e) as [L | G]; [exact L |]. exfalso. revert Hx. unfold B2R, F2R. cbn [Fnum Fexp cond_Zopp].
    assert (bpow radix2 e <= bpow radix2 (-24))%R by (apply bpow_le; lia).
    assert (P : (IZR (Zpos m) * bpow radix2 e <= IZR (Zpos m) * bpow radix2 (-24))%R) by (apply Rmult_le_compat_l; [apply IZR_le; lia | assumption]).
    assert (Q : (IZR (Zpos m) * bpow radix2 (-24) < 1)%R).
    { change (bpow radix2 (-24)) with (/ 16777216)%R. assert (IZR (Zpos m) < 16777216)%R by (apply IZR_lt; exact M1). lra. }
    lra. }
  specialize (M2 ltac:(lia)). cbn [float_bits]. destruct (Z.ltb_spec (Zpos m) 8388608); lia.
Qed.
Lemma grain_switch E g : 1 <= g <= 2 ^ 24 -> switch_outlet E [LN (of_int 0)] [EF (of_int g)] = Ok 1%nat.
Proof.
  intros Hg. destruct (of_int_exact g) as [A1 A2]; [lia |].
  pose proof (bits_large (e_nan E) (of_int g) A2 ltac:(rewrite A1; apply IZR_le; lia)) as B.
  apply (switch_float E [LN (of_int 0)]).
  - replace (hv_string_to_hash (T "symbol")) with 114691694 by (vm_compute; reflexivity). lia.
  - constructor; [| constructor]. unfold label_hash. change (of_int 0) with fzero. cbn [float_bits fzero]. lia.
Qed.
Lemma grain_zero E : switch_outlet E [LN (of_int 0)] [EF (of_int 0)] = Ok 0%nat.
Proof. reflexivity. Qed.
Lemma done_no E : switch_outlet E [LN (of_int 0); LN (of_int 1)] [EF fzero] = Ok 0%nat.
Proof. reflexivity. Qed.
Lemma done_yes E : switch_outlet E [LN (of_int 0); LN (of_int 1)] [EF fone] = Ok 1%nat.
Proof. reflexivity. Qed.
Lemma metro_one E : switch_outlet E metro_cases [EF (of_int 1)] = Ok 2%nat.
Proof. reflexivity. Qed.
Lemma metro_off E : switch_outlet E metro_cases [EF (of_int 0)] = Ok 0%nat.
Proof. reflexivity. Qed.
Definition ramp_cases := [LS (T "stop"); LS (T "set")].
Lemma ramp_float E v l : plain E ramp_words v -> switch_outlet E ramp_cases (EF v :: l) = Ok 2%nat.
Proof.
  intros H. pose proof (Forall_inv H) as H1. pose proof (Forall_inv (Forall_inv_tail H)) as H2.
  pose proof (Forall_inv (Forall_inv_tail (Forall_inv_tail H))) as H3. cbv beta in H1, H2, H3. clear H.
  transitivity (switch_outlet E ramp_cases [EF v]); [unfold switch_outlet; cbn [elem_hash]; now rewrite (proj2 (Z.eqb_neq _ _) H3) |].
  apply (switch_float E ramp_cases); [exact H3 |]. constructor; [exact H1 | constructor; [exact H2 | constructor]].
Qed.
Lemma ramp_halt E : switch_outlet E ramp_cases [word "stop"] = Ok 0%nat.
Proof. reflexivity. Qed.
Lemma ramp_set E v : switch_outlet E ramp_cases [word "set"; EF v] = Ok 1%nat.
Proof. reflexivity. Qed.
Lemma fmax_grain g : 0 <= g <= 2 ^ 24 -> fmax (of_int g) fzero = of_int g.
Proof.
  intros Hz. destruct (of_int_exact g) as [A1 A2]; [lia |]. unfold fmax. 
  replace (is_nan (of_int g)) with false by (destruct (of_int g); try discriminate A2; reflexivity). cbn [is_nan fzero].
  pose proof (of_int_fltb g 0 ltac:(lia) ltac:(lia)) as H. change (of_int 0) with fzero in H. change (B754_zero false) with fzero. rewrite H.
  destruct (Z.ltb_spec g 0); [lia | reflexivity].
Qed.
Lemma fmax_neg g : - 2 ^ 24 <= g <= 0 -> fmax (of_int g) fzero = of_int 0.
Proof.
  intros Hz. destruct (Z.eq_dec g 0) as [-> | N]; [reflexivity |]. destruct (of_int_exact g) as [A1 A2]; [lia |]. unfold fmax. 
  replace (is_nan (of_int g)) with false by (destruct (of_int g); try discriminate A2; reflexivity). cbn [is_nan fzero].
  pose proof (of_int_fltb g 0 ltac:(lia) ltac:(lia)) as H. change (of_int 0) with fzero in H. change (B754_zero false) with fzero. rewrite H.
  destruct (Z.ltb_spec g 0); [reflexivity | lia].
Qed.
