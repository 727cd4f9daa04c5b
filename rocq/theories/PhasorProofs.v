(** Supporting lemmas for C30 and C45. *)
From Verif Require Import PhasorModel PhasorSpec Float32Facts.
From Flocq Require Import Core.
From Coq Require Import Reals Lra Lia ZifyBool.
Local Open Scope Z_scope.

Lemma fsub_exact x y m e : is_finite x = true -> is_finite y = true ->
  (R32 x - R32 y = IZR m * bpow radix2 e)%R -> (Z.abs m <= 2 ^ 24)%Z -> (-149 <= e <= 100)%Z ->
  R32 (fsub x y) = (IZR m * bpow radix2 e)%R /\ is_finite (fsub x y) = true.
Proof.
  intros Fx Fy E Hm He. unfold fsub. pose proof (Bminus_correct 24 128 _ _ mode_NE x y Fx Fy) as H.
  rewrite E in H. rewrite round_generic in H; [|apply valid_rnd_round_mode|apply fmt32; lia].
  rewrite Rlt_bool_true in H by (apply small_bpow; lia). destruct H as (H1 & H2 & _). auto.
Qed.

Lemma land_one m : 0 <= m < 8388608 -> Z.land m one_bits = 0.
Proof.
  intro H. apply Z.bits_inj'. intros n Hn. rewrite Z.land_spec, Z.bits_0.
  change one_bits with (Z.shiftl 127 23). destruct (Z.lt_ge_cases n 23) as [L|L].
  - rewrite Z.shiftl_spec_low by lia. apply Bool.andb_false_r.
  - replace (Z.testbit m n) with false; [reflexivity|]. symmetry.
    destruct (Z.eq_dec m 0) as [->|N]; [apply Z.bits_0|]. apply Z.bits_above_log2; [lia|].
    assert (Z.log2 m < 23); [|lia]. apply Z.log2_lt_pow2; [lia|]. change (2 ^ 23) with 8388608. lia.
Qed.
Lemma lor_one m : 0 <= m < 8388608 -> Z.lor m one_bits = m + one_bits.
Proof. intro H. symmetry. rewrite <- Z.lxor_lor by (apply land_one; auto). apply Z.add_nocarry_lxor. apply land_one; auto. Qed.
Lemma of_bits_12 m : 0 <= m < 8388608 -> of_bits (Z.lor m one_bits) = fdyadic (m + 8388608) (-23).
Proof.
  intro H. rewrite lor_one by auto. unfold of_bits.
  replace ((m + one_bits) / 8388608) with 127 by (unfold one_bits; apply (Z.div_unique_pos _ _ _ m); lia).
  replace ((m + one_bits) mod 8388608) with m by (unfold one_bits; apply (Z.mod_unique_pos _ _ 127); lia).
  replace (Z.testbit (m + one_bits) 31) with false; [reflexivity|].
  symmetry. apply Z.bits_above_log2; unfold one_bits; [lia|]. apply Z.log2_lt_pow2; [lia|]. change (2 ^ 31) with 2147483648. lia.
Qed.
Lemma fone_R : R32 fone = 1%R /\ is_finite fone = true.
Proof. apply (of_int_exact 1). lia. Qed.
Lemma bits_out m : 0 <= m < 8388608 ->
  is_finite (fsub (of_bits (Z.lor m one_bits)) fone) = true /\
  R32 (fsub (of_bits (Z.lor m one_bits)) fone) = (IZR m / IZR 8388608)%R.
Proof.
  intro H. rewrite of_bits_12 by auto. destruct (dyadic_exact (m + 8388608) (-23)) as [A B]; [change (2 ^ 24) with 16777216; lia|lia|].
  destruct fone_R as [A1 B1].
  assert (P : bpow radix2 (-23) = (/ IZR 8388608)%R) by reflexivity.
  destruct (fsub_exact (fdyadic (m + 8388608) (-23)) fone m (-23) B B1) as [C D].
  - rewrite A, A1, P, plus_IZR. field.
  - change (2 ^ 24) with 16777216. lia.
  - lia.
  - split; [exact D|]. rewrite C, P. reflexivity.
Qed.
Lemma phase_out_exact p : 0 <= p < 4294967296 ->
  is_finite (phase_out p) = true /\ R32 (phase_out p) = sample p.
Proof.
  intro H. unfold phase_out. rewrite Z.shiftr_div_pow2 by lia. change (2 ^ 9) with 512. apply bits_out.
  split; [apply Z.div_pos; lia|]. apply Z.div_lt_upper_bound; lia.
Qed.
Lemma frac_range m : 0 <= m < 8388608 -> (0 <= IZR m / IZR 8388608 < 1)%R.
Proof. intro H. assert (0 <= IZR m)%R by (apply IZR_le; lia). assert (IZR m < 8388608)%R by (apply IZR_lt; lia). lra. Qed.
Lemma sample_range p : 0 <= p < 4294967296 -> (0 <= sample p < 1)%R.
Proof. intro H. apply frac_range. split; [apply Z.div_pos; lia|]. apply Z.div_lt_upper_bound; lia. Qed.
Lemma mantissa_range x : 0 <= mantissa_bits x < 8388608.
Proof. destruct x; cbn; try lia. apply (Z.mod_pos_bound (Z.pos m) 8388608). lia. Qed.
Lemma wrap12_out x : is_finite (fsub (wrap12 x) fone) = true /\ (0 <= R32 (fsub (wrap12 x) fone) < 1)%R.
Proof.
  unfold wrap12. pose proof (mantissa_range x) as H. destruct (bits_out _ H) as [A B]. split; [exact A|]. rewrite B.
  apply frac_range. exact H.
Qed.

(** *** Wrapping the phase of a message *)
Lemma repr x : is_finite x = true -> exists m e, R32 x = (IZR m * bpow radix2 e)%R /\ Z.abs m < 16777216 /\ -149 <= e <= 104.
Proof.
  destruct x as [s|s| |s m e H]; try discriminate; intros _.
  - exists 0, 0. cbn. split; [lra|lia].
  - exists (cond_Zopp s (Z.pos m)), e. split; [reflexivity|]. unfold SpecFloat.bounded, SpecFloat.canonical_mantissa in H.
    apply andb_prop in H as [H1 H2]. apply Zeq_bool_eq in H1. apply Zle_bool_imp_le in H2.
    unfold SpecFloat.fexp, SpecFloat.emin in *.
    assert (D : Z.pos (SpecFloat.digits2_pos m) <= 24) by lia.
    rewrite Digits.Zpos_digits2_pos in *. 
    assert (Z.pos m < 16777216).
    { pose proof (Digits.Zpower_gt_Zdigits radix2 24 (Z.pos m)) as P. change (radix2 ^ 24) with 16777216 in P. cbn [Z.abs] in P. apply P. exact D. }
    destruct s; cbn [cond_Zopp]; lia.
Qed.
Lemma bpow_m m e : 0 <= e -> (IZR m * bpow radix2 e)%R = IZR (m * 2 ^ e).
Proof. intro H. rewrite mult_IZR. f_equal. rewrite (IZR_Zpower radix2) by auto. reflexivity. Qed.
Lemma one_bpow e : -149 <= e <= 0 -> exists k, 0 < k /\ IZR k = bpow radix2 (- e) /\ (1 = IZR k * bpow radix2 e)%R.
Proof.
  intro H. exists (2 ^ (- e)). assert (E : IZR (2 ^ (- e)) = bpow radix2 (- e)) by (rewrite <- (IZR_Zpower radix2) by lia; reflexivity).
  split; [apply Z.pow_pos_nonneg; lia|]. split; [exact E|]. rewrite E, <- bpow_plus. replace (- e + e) with 0 by lia. reflexivity.
Qed.
(** A float of magnitude at most 2^24 is an integer of at most 2^24 times a nonpositive power of two. *)
Lemma repr24 x : is_finite x = true -> (Rabs (R32 x) <= IZR 16777216)%R ->
  exists m e, R32 x = (IZR m * bpow radix2 e)%R /\ Z.abs m <= 16777216 /\ -149 <= e <= 0.
Proof.
  intros F B. destruct (repr x F) as (m & e & E & M & X). destruct (Z.le_gt_cases e 0) as [L|L].
  - exists m, e. split; [exact E|lia].
  - exists (m * 2 ^ e), 0. rewrite E, (bpow_m m e) in * by lia. rewrite bpow_m by lia. rewrite Z.pow_0_r, Z.mul_1_r. split; [reflexivity|].
    rewrite <- abs_IZR in B. apply le_IZR in B. lia.
Qed.
Lemma cmp24 m e k : (IZR k * bpow radix2 e <= IZR m * bpow radix2 e)%R -> k <= m.
Proof. intro H. apply le_IZR. apply Rmult_le_reg_r with (bpow radix2 e); [apply bpow_gt_0|exact H]. Qed.
Lemma step_down p : is_finite p = true -> (1 <= R32 p <= IZR 16777216)%R ->
  is_finite (fsub p fone) = true /\ R32 (fsub p fone) = (R32 p - 1)%R.
Proof.
  intros F B. destruct (repr24 p F) as (m & e & E & M & X); [rewrite Rabs_pos_eq; lra|].
  destruct (one_bpow e X) as (k & K0 & K1 & K2). destruct fone_R as [A1 B1].
  destruct (fsub_exact p fone (m - k) e F B1) as [C D].
  - rewrite E, A1, minus_IZR, Rmult_minus_distr_r, <- K2. reflexivity.
  - assert (k <= m) by (apply (cmp24 m e k); rewrite <- K2, <- E; lra). change (2 ^ 24) with 16777216. lia.
  - lia.
  - split; [exact D|]. rewrite C, E, minus_IZR, Rmult_minus_distr_r, <- K2. reflexivity.
Qed.
Lemma step_up p : is_finite p = true -> (- IZR 16777216 <= R32 p <= -1)%R ->
  is_finite (fadd p fone) = true /\ R32 (fadd p fone) = (R32 p + 1)%R.
Proof.
  intros F B. destruct (repr24 p F) as (m & e & E & M & X); [rewrite Rabs_left1; lra|].
  destruct (one_bpow e X) as (k & K0 & K1 & K2). destruct fone_R as [A1 B1].
  destruct (fadd_exact p fone (m + k) e F B1) as [C D].
  - rewrite E, A1, plus_IZR, Rmult_plus_distr_r, <- K2. reflexivity.
  - assert (m <= - k) by (apply (cmp24 (- k) e m); rewrite opp_IZR, Ropp_mult_distr_l_reverse, <- K2, <- E; lra). change (2 ^ 24) with 16777216. lia.
  - lia.
  - split; [exact D|]. rewrite C, E, plus_IZR, Rmult_plus_distr_r, <- K2. reflexivity.
Qed.
Lemma fmt_Z z : Z.abs z <= 16777216 -> generic_format radix2 fexp32 (IZR z).
Proof. intro H. replace (IZR z) with (IZR z * bpow radix2 0)%R by (cbn; lra). apply fmt32; change (2 ^ 24) with 16777216; lia. Qed.
Lemma fadd_between p q a b : is_finite p = true -> is_finite q = true -> generic_format radix2 fexp32 a -> generic_format radix2 fexp32 b ->
  (a <= R32 p + R32 q <= b)%R -> (Rabs a < bpow radix2 128)%R -> (Rabs b < bpow radix2 128)%R ->
  is_finite (fadd p q) = true /\ (a <= R32 (fadd p q) <= b)%R.
Proof.
  intros Fp Fq Ga Gb [L U] Ha Hb. unfold fadd. pose proof (Bplus_correct 24 128 _ _ mode_NE p q Fp Fq) as H.
  set (r := round radix2 fexp32 (round_mode mode_NE) (R32 p + R32 q)) in *.
  assert (V : Valid_rnd (round_mode mode_NE)) by apply valid_rnd_round_mode.
  assert (L' : (a <= r)%R).
  { unfold r. rewrite <- (round_generic radix2 fexp32 (round_mode mode_NE) a Ga). apply round_le; auto. apply fexp_correct. reflexivity. }
  assert (U' : (r <= b)%R).
  { unfold r. rewrite <- (round_generic radix2 fexp32 (round_mode mode_NE) b Gb). apply round_le; auto. apply fexp_correct. reflexivity. }
  rewrite Rlt_bool_true in H.
  - destruct H as (H1 & H2 & _). split; [exact H2|]. rewrite H1. split; auto.
  - apply Rabs_lt. apply Rabs_lt_inv in Ha, Hb. lra.
Qed.
Lemma lt128 z : Z.abs z <= 16777216 -> (Rabs (IZR z) < bpow radix2 128)%R.
Proof. intro H. replace (IZR z) with (IZR z * bpow radix2 0)%R by (cbn; lra). apply small_bpow; change (2 ^ 24) with 16777216; lia. Qed.
Lemma step_last p : is_finite p = true -> (-1 <= R32 p <= 0)%R ->
  is_finite (fadd p fone) = true /\ (0 <= R32 (fadd p fone) <= 1)%R.
Proof.
  intros F B. destruct fone_R as [A1 B1]. apply (fadd_between p fone (IZR 0) (IZR 1)); auto; try (apply fmt_Z; lia); try (apply lt128; lia).
  rewrite A1. lra.
Qed.
Lemma fltb_R x y : is_finite x = true -> is_finite y = true -> fltb x y = Rlt_bool (R32 x) (R32 y).
Proof. intros. apply (Bltb_correct 24 128); auto. Qed.
Lemma up_stop n p : is_finite p = true -> (0 <= R32 p)%R -> wrap_up n p = Some p.
Proof. intros F H. destruct n; cbn [wrap_up]; rewrite fltb_R by auto; rewrite Rlt_bool_false; auto. Qed.
Lemma down_stop n p : is_finite p = true -> (R32 p <= 1)%R -> wrap_down n p = Some p.
Proof. intros F H. destruct fone_R as [A1 B1]. destruct n; cbn [wrap_down]; rewrite fltb_R by auto; rewrite A1, Rlt_bool_false; auto. Qed.
Lemma up_ok n : forall p, is_finite p = true -> (- IZR (Z.of_nat n) <= R32 p < 0)%R -> (- IZR 16777216 <= R32 p)%R ->
  exists r, wrap_up n p = Some r /\ is_finite r = true /\ (0 <= R32 r <= 1)%R.
Proof.
  induction n as [|n IH]; intros p F H B; [cbn in H; lra|]. cbn [wrap_up]. rewrite fltb_R by auto.
  rewrite Rlt_bool_true by (cbn; lra). destruct (Rle_lt_dec (R32 p) (-1)) as [C|C].
  - destruct (step_up p F) as [F' E]; [lra|]. destruct (Rle_lt_dec 0 (R32 (fadd p fone))) as [D|D].
    + exists (fadd p fone). rewrite up_stop by auto. split; [reflexivity|]. split; [exact F'|]. lra.
    + apply IH; auto; rewrite E in *; [|lra]. rewrite Nat2Z.inj_succ, succ_IZR in H. lra.
  - destruct (step_last p F) as [F' E]; [lra|]. exists (fadd p fone). rewrite up_stop by (auto; lra). auto.
Qed.
Lemma down_ok n : forall p, is_finite p = true -> (0 <= R32 p <= IZR (Z.of_nat n) + 1)%R -> (R32 p <= IZR 16777216)%R ->
  exists r, wrap_down n p = Some r /\ is_finite r = true /\ (0 <= R32 r <= 1)%R /\ exists k, R32 r = (R32 p - IZR k)%R.
Proof.
  induction n as [|n IH]; intros p F H B.
  - exists p. rewrite down_stop by (auto; cbn in H; lra). split; [reflexivity|]. split; [auto|]. split; [cbn in H; lra|]. exists 0. lra.
  - destruct (Rle_lt_dec (R32 p) 1) as [C|C].
    + exists p. rewrite down_stop by auto. split; [reflexivity|]. split; [auto|]. split; [lra|]. exists 0. lra.
    + destruct fone_R as [A1 B1]. cbn [wrap_down]. rewrite fltb_R by auto. rewrite A1, Rlt_bool_true by lra.
      destruct (step_down p F) as [F' E]; [lra|]. destruct (IH (fsub p fone) F') as (r & R1 & R2 & R3 & k & R4).
      * rewrite E. rewrite Nat2Z.inj_succ, succ_IZR in H. lra.
      * lra.
      * exists r. split; [exact R1|]. split; [exact R2|]. split; [exact R3|]. exists (k + 1). rewrite R4, E, plus_IZR. lra.
Qed.

(** Beyond 2^24 + 2 subtracting one no longer makes progress. *)
Definition cbig : f32 := fdyadic 4194305 2.
Definition cneg : f32 := fdyadic (-4194305) 2.
Lemma cbig_R : R32 cbig = IZR 16777220 /\ is_finite cbig = true.
Proof. destruct (dyadic_exact 4194305 2) as [A B]; [change (2 ^ 24) with 16777216; lia|lia|]. split; [|exact B]. unfold cbig. rewrite A, bpow_m by lia. reflexivity. Qed.
Lemma cneg_R : R32 cneg = IZR (-16777220) /\ is_finite cneg = true.
Proof. destruct (dyadic_exact (-4194305) 2) as [A B]; [change (2 ^ 24) with 16777216; lia|lia|]. split; [|exact B]. unfold cneg. rewrite A, bpow_m by lia. reflexivity. Qed.
Lemma cbig_fix : fsub cbig fone = cbig.
Proof. apply B2SF_inj. vm_compute. reflexivity. Qed.
Lemma cneg_fix : fadd cneg fone = cneg.
Proof. apply B2SF_inj. vm_compute. reflexivity. Qed.
Definition huge (p : f32) : Prop := p = B754_infinity false \/ (is_finite p = true /\ (IZR 16777220 <= R32 p)%R).
Definition nhuge (p : f32) : Prop := p = B754_infinity true \/ (is_finite p = true /\ (R32 p <= IZR (-16777220))%R).
Notation rnd := (round radix2 fexp32 (round_mode mode_NE)).
Lemma rnd_le x y : (x <= y)%R -> (rnd x <= rnd y)%R.
Proof. intro H. assert (Valid_rnd (round_mode mode_NE)) by apply valid_rnd_round_mode. apply round_le; auto. apply fexp_correct. reflexivity. Qed.
Lemma rnd_B x : rnd (R32 x) = R32 x.
Proof. assert (Valid_rnd (round_mode mode_NE)) by apply valid_rnd_round_mode. apply round_generic; auto. apply generic_format_B2R. Qed.
Lemma fsub_R x y : is_finite x = true -> is_finite y = true -> (Rabs (rnd (R32 x - R32 y)) < bpow radix2 128)%R ->
  R32 (fsub x y) = rnd (R32 x - R32 y) /\ is_finite (fsub x y) = true.
Proof. intros Fx Fy H. pose proof (Bminus_correct 24 128 _ _ mode_NE x y Fx Fy) as B. rewrite Rlt_bool_true in B by exact H. destruct B as (B1 & B2 & _). split; assumption. Qed.
Lemma fadd_R x y : is_finite x = true -> is_finite y = true -> (Rabs (rnd (R32 x + R32 y)) < bpow radix2 128)%R ->
  R32 (fadd x y) = rnd (R32 x + R32 y) /\ is_finite (fadd x y) = true.
Proof. intros Fx Fy H. pose proof (Bplus_correct 24 128 _ _ mode_NE x y Fx Fy) as B. rewrite Rlt_bool_true in B by exact H. destruct B as (B1 & B2 & _). split; assumption. Qed.
Lemma small16 x : (- IZR 33554432 <= x <= IZR 33554432)%R -> (Rabs x < bpow radix2 128)%R.
Proof.
  intro H. apply Rle_lt_trans with (bpow radix2 25); [apply Rabs_le; cbn; lra|]. apply bpow_lt. lia.
Qed.
Lemma rnd_big : rnd (IZR 16777220 - 1) = IZR 16777220.
Proof.
  destruct cbig_R as [A B], fone_R as [A1 B1].
  assert (U : (rnd (IZR 16777220 - 1) <= IZR 16777220)%R).
  { rewrite <- A at 2. rewrite <- (rnd_B cbig). apply rnd_le. rewrite A. lra. }
  assert (L : (0 <= rnd (IZR 16777220 - 1))%R).
  { replace 0%R with (R32 fzero) by reflexivity. rewrite <- (rnd_B fzero). apply rnd_le. cbn. lra. }
  destruct (fsub_R cbig fone B B1) as [C _]; rewrite A, A1 in *.
  - apply small16. lra.
  - rewrite cbig_fix, A in C. symmetry. exact C.
Qed.
Lemma rnd_neg : rnd (IZR (-16777220) + 1) = IZR (-16777220).
Proof.
  destruct cneg_R as [A B], fone_R as [A1 B1].
  assert (U : (IZR (-16777220) <= rnd (IZR (-16777220) + 1))%R).
  { rewrite <- A at 1. rewrite <- (rnd_B cneg). apply rnd_le. rewrite A. lra. }
  assert (L : (rnd (IZR (-16777220) + 1) <= 0)%R).
  { replace 0%R with (R32 fzero) by reflexivity. rewrite <- (rnd_B fzero). apply rnd_le. cbn. lra. }
  destruct (fadd_R cneg fone B B1) as [C _]; rewrite A, A1 in *.
  - apply small16. lra.
  - rewrite cneg_fix, A in C. symmetry. exact C.
Qed.
Lemma huge_step p : huge p -> huge (fsub p fone).
Proof.
  intros [ -> |[F H]]; [left; reflexivity|]. right. destruct fone_R as [A1 B1].
  assert (L : (IZR 16777220 <= rnd (R32 p - 1))%R) by (rewrite <- rnd_big at 1; apply rnd_le; lra).
  assert (U : (rnd (R32 p - 1) <= R32 p)%R) by (rewrite <- (rnd_B p) at 2; apply rnd_le; lra).
  destruct (fsub_R p fone F B1) as [C D]; rewrite A1 in *.
  - rewrite Rabs_pos_eq by lra. apply Rle_lt_trans with (R32 p); [exact U|]. pose proof (abs_B2R_lt_emax 24 128 p) as M. rewrite Rabs_pos_eq in M by lra. exact M.
  - rewrite C. auto.
Qed.
Lemma nhuge_step p : nhuge p -> nhuge (fadd p fone).
Proof.
  intros [ -> |[F H]]; [left; reflexivity|]. right. destruct fone_R as [A1 B1].
  assert (L : (rnd (R32 p + 1) <= IZR (-16777220))%R) by (rewrite <- rnd_neg; apply rnd_le; lra).
  assert (U : (R32 p <= rnd (R32 p + 1))%R) by (rewrite <- (rnd_B p) at 1; apply rnd_le; lra).
  destruct (fadd_R p fone F B1) as [C D]; rewrite A1 in *.
  - rewrite Rabs_left1 by lra. apply Rle_lt_trans with (- R32 p)%R; [lra|]. pose proof (abs_B2R_lt_emax 24 128 p) as M. rewrite Rabs_left1 in M by lra. exact M.
  - rewrite C. auto.
Qed.
Lemma huge_test p : huge p -> fltb fone p = true.
Proof. destruct fone_R as [A1 B1]. intros [ -> |[F H]]; [reflexivity|]. rewrite fltb_R by auto. rewrite A1. apply Rlt_bool_true. lra. Qed.
Lemma nhuge_test p : nhuge p -> fltb p fzero = true.
Proof. intros [ -> |[F H]]; [reflexivity|]. rewrite fltb_R by auto. apply Rlt_bool_true. cbn [B2R fzero]. lra. Qed.
Lemma huge_none n : forall p, huge p -> wrap_down n p = None.
Proof. induction n; intros p H; cbn [wrap_down]; rewrite (huge_test p H); [reflexivity|]. apply IHn. apply huge_step. exact H. Qed.
Lemma nhuge_none n : forall p, nhuge p -> wrap_up n p = None.
Proof. induction n; intros p H; cbn [wrap_up]; rewrite (nhuge_test p H); [reflexivity|]. apply IHn. apply nhuge_step. exact H. Qed.

(** Between 2^24 and 2^24 + 4 there is only 2^24 + 2. *)
Lemma above24 p : is_finite p = true -> (IZR 16777216 < Rabs (R32 p) < IZR 16777220)%R -> Rabs (R32 p) = IZR 16777218.
Proof.
  intros F H. destruct (repr p F) as (m & e & E & M & X). destruct (Z.le_gt_cases e 0) as [L|L].
  - exfalso. assert (Rabs (R32 p) <= IZR 16777216)%R; [|lra]. rewrite E, Rabs_mult, (Rabs_pos_eq (bpow radix2 e)) by apply bpow_ge_0.
    rewrite <- abs_IZR. replace (IZR 16777216) with (IZR 16777216 * 1)%R by lra. apply Rmult_le_compat; [apply IZR_le; lia|apply bpow_ge_0|apply IZR_le; lia|].
    change 1%R with (bpow radix2 0). apply bpow_le. exact L.
  - rewrite E, bpow_m in * by lia. rewrite <- abs_IZR in *. destruct H as [H1 H2]. apply lt_IZR in H1, H2. f_equal.
    replace e with (1 + (e - 1)) in * by lia. rewrite Z.pow_add_r in * by lia. change (2 ^ 1) with 2 in *. set (q := 2 ^ (e - 1)) in *.
    replace (m * (2 * q)) with (2 * (m * q)) in * by ring. lia.
Qed.
Lemma down_start p : is_finite p = true -> (R32 p = IZR 16777218)%R -> is_finite (fsub p fone) = true /\ (0 <= R32 (fsub p fone) <= IZR 16777216)%R /\ (exists k, R32 (fsub p fone) = IZR k).
Proof.
  intros F E. replace p with (fdyadic 8388609 1).
  - replace (fsub (fdyadic 8388609 1) fone) with (of_int 16777216) by (apply B2SF_inj; vm_compute; reflexivity).
    destruct (of_int_exact 16777216) as [A B]; [change (2 ^ 24) with 16777216; lia|]. split; [exact B|]. rewrite A. split; [lra|]. exists 16777216. reflexivity.
  - destruct (dyadic_exact 8388609 1) as [A B]; [change (2 ^ 24) with 16777216; lia|lia|]. apply B2R_inj.
    + destruct (fdyadic 8388609 1); try discriminate; try reflexivity. exfalso. rewrite bpow_m in A by lia. cbn in A. lra.
    + destruct p; try discriminate; try reflexivity. exfalso. cbn in E. lra.
    + rewrite A, bpow_m, E by lia. reflexivity.
Qed.
Lemma up_start p : is_finite p = true -> (R32 p = IZR (-16777218))%R -> is_finite (fadd p fone) = true /\ (- IZR 16777216 <= R32 (fadd p fone) < 0)%R.
Proof.
  intros F E. replace p with (fdyadic (-8388609) 1).
  - replace (fadd (fdyadic (-8388609) 1) fone) with (of_int (-16777216)) by (apply B2SF_inj; vm_compute; reflexivity).
    destruct (of_int_exact (-16777216)) as [A B]; [change (2 ^ 24) with 16777216; lia|]. split; [exact B|]. rewrite A. lra.
  - destruct (dyadic_exact (-8388609) 1) as [A B]; [change (2 ^ 24) with 16777216; lia|lia|]. apply B2R_inj.
    + destruct (fdyadic (-8388609) 1); try discriminate; try reflexivity. exfalso. rewrite bpow_m in A by lia. cbn in A. lra.
    + destruct p; try discriminate; try reflexivity. exfalso. cbn in E. lra.
    + rewrite A, bpow_m, E by lia. reflexivity.
Qed.
