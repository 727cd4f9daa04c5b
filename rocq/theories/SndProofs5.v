(** Division. *)
From Verif Require Import SndModel SndSpec SndProofs SndProofs2 SndProofs3 SndProofs4 Float32Facts.
From Flocq Require Import Core.
From Flocq Require Import Relative.
From Coq Require Import Reals Lia Lra ZifyBool.
Local Open Scope R_scope.
Definition entry_ok (q : Z) : bool :=
  let e := recip_estimate q in
  ((256 <=? e) && (e <=? 511) && (350 * Z.abs (e * q - 131072) <=? 131072) && (350 * Z.abs (e * (q + 1) - 131072) <=? 131072))%Z.
Lemma table_ok : forallb (fun k => entry_ok (Z.of_nat k)) (seq 256 256) = true.
Proof. vm_compute. reflexivity. Qed.
Lemma entry q : (256 <= q < 512)%Z -> entry_ok q = true.
Proof.
  intro H. pose proof table_ok as T. rewrite forallb_forall in T. specialize (T (Z.to_nat q)).
  rewrite Z2Nat.id in T by lia. apply T. apply in_seq. lia.
Qed.
Lemma estimate m : (8388608 <= m < 16777216)%Z -> let e := recip_estimate (m / 2 ^ 15) in
  (256 <= e <= 511)%Z /\ (350 * Z.abs (e * m - 4294967296) <= 4294967296)%Z.
Proof.
  intros H e. change (2 ^ 15)%Z with 32768%Z in e. set (q := (m / 32768)%Z) in *.
  pose proof (Z.div_mod m 32768 ltac:(lia)) as D. pose proof (Z.mod_pos_bound m 32768 ltac:(lia)) as B. fold q in D.
  assert (Q : (256 <= q < 512)%Z) by lia. pose proof (entry q Q) as E. unfold entry_ok in E. fold e in E.
  assert (E1 : (256 <= e <= 511)%Z) by lia. split; auto.
  assert (A1 : (350 * Z.abs (e * q - 131072) <= 131072)%Z) by lia. assert (A2 : (350 * Z.abs (e * (q + 1) - 131072) <= 131072)%Z) by lia.
  assert (L : (e * (q * 32768) <= e * m)%Z) by (apply Z.mul_le_mono_nonneg_l; lia).
  assert (U : (e * m <= e * ((q + 1) * 32768))%Z) by (apply Z.mul_le_mono_nonneg_l; lia).
  replace (e * (q * 32768))%Z with ((e * q) * 32768)%Z in L by ring.
  replace (e * ((q + 1) * 32768))%Z with ((e * (q + 1)) * 32768)%Z in U by ring.
  set (a := (e * q)%Z) in *. set (b := (e * (q + 1))%Z) in *. lia.
Qed.
Lemma normalise m e H : let x := B754_finite false m e H : f32 in
  let sh := (24 - Zpos (SpecFloat.digits2_pos m))%Z in
  (0 <= sh)%Z /\ (8388608 <= Zpos m * 2 ^ sh < 16777216)%Z /\ R32 x = IZR (Zpos m * 2 ^ sh) * bpow radix2 (e - sh).
Proof.
  intros x sh. pose proof (bounded_cases m e H) as C.
  assert (D : Zpos (SpecFloat.digits2_pos m) = Zdigits radix2 (Zpos m)) by apply Zpos_digits2_pos.
  pose proof (Zdigits_correct radix2 (Zpos m)) as DC. change (radix_val radix2) with 2%Z in DC. rewrite Z.abs_eq in DC by lia.
  unfold sh. rewrite D. set (d := Zdigits radix2 (Zpos m)) in *.
  assert (0 < d)%Z by (apply Zdigits_gt_0; lia).
  assert (S : (0 <= 24 - d)%Z).
  { assert (2 ^ (d - 1) < 2 ^ 24)%Z by (change (2 ^ 24)%Z with 16777216%Z; lia). assert (d - 1 < 24)%Z by (apply (Z.pow_lt_mono_r_iff 2); lia). lia. }
  split; auto. split.
  - assert (P : (0 < 2 ^ (24 - d))%Z) by (apply Z.pow_pos_nonneg; lia). split.
    + change 8388608%Z with (2 ^ 23)%Z. replace 23%Z with ((d - 1) + (24 - d))%Z by lia. rewrite Z.pow_add_r by lia. apply Z.mul_le_mono_nonneg_r; lia.
    + change 16777216%Z with (2 ^ 24)%Z. replace 24%Z with (d + (24 - d))%Z at 2 by lia. rewrite Z.pow_add_r by lia. apply Z.mul_lt_mono_pos_r; lia.
  - unfold x. cbn [B2R cond_Zopp]. unfold F2R. cbn [Fnum Fexp]. rewrite mult_IZR, (IZR_Zpower radix2) by auto. rewrite Rmult_assoc, <- bpow_plus.
    f_equal. f_equal. lia.
Qed.
(** The sign and size of the estimate. *)
Lemma small_normal (n e : Z) : (Z.abs n < 512)%Z -> (-149 <= e <= 119)%Z ->
  R32 (fdyadic n e) = IZR n * bpow radix2 e /\ is_finite (fdyadic n e) = true.
Proof.
  intros Hn He. unfold fdyadic. pose proof (binary_normalize_correct 24 128 _ _ mode_NE n e false) as N. cbv zeta in N.
  rewrite round_generic in N; [|apply valid_rnd_N|apply (fmt32 n e); [change (2 ^ 24)%Z with 16777216%Z; lia|lia]].
  rewrite Rlt_bool_true in N. { destruct N as (A & B & _). auto. }
  unfold F2R. cbn [Fnum Fexp]. rewrite Rabs_mult, (Rabs_pos_eq (bpow radix2 e)) by apply bpow_ge_0. rewrite <- abs_IZR.
  apply Rlt_le_trans with (bpow radix2 9 * bpow radix2 e).
  - apply Rmult_lt_compat_r; [apply bpow_gt_0|]. replace (bpow radix2 9) with (IZR 512) by reflexivity. apply IZR_lt. lia.
  - rewrite <- bpow_plus. apply bpow_le. lia.
Qed.
Lemma recpe_ok y : is_finite y = true -> bpow radix2 (-128) <= Rabs (R32 y) ->
  is_finite (vrecpe y) = true /\ Rabs (R32 (vrecpe y) * R32 y - 1) <= / 350 /\ R32 y <> 0.
Proof.
  intros Fy B. destruct y as [s|s| |s m e H]; try discriminate.
  { cbn in B. rewrite Rabs_R0 in B. pose proof (bpow_gt_0 radix2 (-128)). cbn in *. lra. }
  pose proof (normalise m e H) as N. cbv zeta in N. cbv delta [vrecpe] beta iota zeta.
  set (sh := (24 - Z.pos (SpecFloat.digits2_pos m))%Z) in *. destruct N as (N1 & N2 & N3).
  set (m' := (Z.pos m * 2 ^ sh)%Z) in *. destruct (estimate m' N2) as [E1 E2]. set (est := recip_estimate (m' / 2 ^ 15)) in *.
  assert (Y : R32 (B754_finite s m e H) = (if s then -1 else 1) * (IZR m' * bpow radix2 (e - sh))).
  { rewrite <- N3. destruct s; cbn [B2R cond_Zopp]; [rewrite F2R_Zopp|]; cbn; ring. }
  assert (NZ : 0 < IZR m' * bpow radix2 (e - sh)) by (apply Rmult_lt_0_compat; [apply IZR_lt; lia|apply bpow_gt_0]).
  assert (EX : (-151 <= e - sh)%Z).
  { rewrite Y in B. assert (U : IZR m' * bpow radix2 (e - sh) < bpow radix2 (24 + (e - sh))).
    { rewrite bpow_plus. apply Rmult_lt_compat_r; [apply bpow_gt_0|]. replace (bpow radix2 24) with (IZR 16777216) by reflexivity. apply IZR_lt. lia. }
    assert (L : bpow radix2 (-128) < bpow radix2 (24 + (e - sh))).
    { apply Rle_lt_trans with (1 := B). rewrite Rabs_mult, (Rabs_pos_eq (IZR m' * _)) by lra.
      replace (Rabs (if s then -1 else 1)) with 1 by (destruct s; [rewrite Rabs_left by lra|rewrite Rabs_pos_eq by lra]; lra). lra. }
    apply lt_bpow in L. lia. }
  assert (EX2 : (e - sh <= 104)%Z) by (pose proof (bounded_cases m e H); lia).
  destruct (small_normal (if s then - est else est) (- (e - sh) - 32) ltac:(destruct s; lia) ltac:(lia)) as [V Fv].
  split; [exact Fv|]. rewrite V, Y. split.
  - replace (IZR (if s then - est else est) * bpow radix2 (- (e - sh) - 32) * ((if s then -1 else 1) * (IZR m' * bpow radix2 (e - sh))))
      with (IZR (est * m') * / 4294967296).
    + rewrite <- (Rmult_1_r (IZR (est * m') * _)). replace (IZR (est * m') * / 4294967296 * 1 - 1) with (IZR (est * m' - 4294967296) * / 4294967296) by (rewrite minus_IZR; field).
      rewrite Rabs_mult, (Rabs_pos_eq (/ _)) by lra. rewrite <- abs_IZR.
      assert (I : 350 * IZR (Z.abs (est * m' - 4294967296)) <= 4294967296) by (rewrite <- mult_IZR; apply IZR_le; exact E2). lra.
    + replace (bpow radix2 (- (e - sh) - 32)) with (/ bpow radix2 (e - sh) * / 4294967296).
      * rewrite mult_IZR. pose proof (bpow_gt_0 radix2 (e - sh)). destruct s; [rewrite opp_IZR|]; field; lra.
      * unfold Z.sub at 2. rewrite bpow_plus, bpow_opp. reflexivity.
  - destruct s; lra.
Qed.
Lemma rnd_rel r : Rabs (rnd32 r - r) <= / 16777216 * Rabs r + bpow radix2 (-150).
Proof.
  destruct (error_N_FLT radix2 (-149) 24 ltac:(lia) (fun x => negb (Z.even x)) r) as (eps & eta & A & B & C & D).
  change (FLT_exp (-149) 24) with fexp32 in D.
  assert (E : rnd32 r = r * (1 + eps) + eta) by exact D. rewrite E.
  replace (r * (1 + eps) + eta - r) with (r * eps + eta) by ring. apply Rle_trans with (1 := Rabs_triang _ _). rewrite Rabs_mult.
  apply Rplus_le_compat.
  - rewrite Rmult_comm. apply Rmult_le_compat_r; [apply Rabs_pos|]. replace (/ 2 * bpow radix2 (- (24) + 1)) with (/ 16777216) in A by (cbn; lra). exact A.
  - replace (/ 2 * bpow radix2 (-149)) with (bpow radix2 (-150)) in B; [exact B|]. change (-149)%Z with (1 + -150)%Z. rewrite bpow_plus. cbn. lra.
Qed.
Section Machine.
Variable M : machine.
Hypothesis OK : machine_ok M.
Notation F := (enc (t_nan M)).
Lemma binop_eval op x y : (match op with Div => True | _ => False end) -> snd_out M (binop_sig op) [F x; F y] 0 = Ok (hv_div M (F x) (F y)).
Proof. destruct op; intro H; try contradiction. run_patch. reflexivity. Qed.
Lemma div_zero x y : feqb y fzero = true -> shows_sample M (binop_sig Div) [x; y] fzero.
Proof.
  intro Z. eexists. split; [apply binop_eval; exact I|]. unfold hv_div. rewrite !vf, Z by auto. cbn [negb].
  destruct (t_arch M); try (apply vf; auto); rewrite ldiff_mask by (apply fw; auto); reflexivity.
Qed.
Lemma div_exact x y : ~ neon M -> feqb y fzero = false -> shows_sample M (binop_sig Div) [x; y] (fdiv x y).
Proof.
  intros N Z. eexists. split; [apply binop_eval; exact I|]. unfold hv_div. rewrite !vf, Z by auto. cbn [negb].
  unfold neon in N. destruct (t_arch M); try (exfalso; intuition congruence); try (apply vf; auto); rewrite ldiff_mask by (apply fw; auto); apply vf; auto.
Qed.
Lemma div_neon x y : neon M -> is_finite x = true -> is_finite y = true -> bpow radix2 (-128) <= Rabs (real y) ->
  Rabs (real x / real y) <= bpow radix2 120 ->
  exists z, shows_sample M (binop_sig Div) [x; y] z /\ within (Rabs (real x / real y) / 300 + bpow radix2 (-149)) z (real x / real y).
Proof.
  intros N Fx Fy B U. unfold real in *. destruct (recpe_ok y Fy B) as (F1 & E & NZ).
  assert (Z : feqb y fzero = false).
  { destruct (feqb y fzero) eqn:Q; auto. unfold feqb in Q. rewrite Beqb_correct in Q by auto. apply req_true in Q. change (R32 fzero) with 0 in Q. contradiction. }
  exists (fmul x (vrecpe y)). split.
  { eexists. split; [apply binop_eval; exact I|]. unfold hv_div. rewrite !vf, Z by auto.
    destruct N as [-> | ->]; rewrite ldiff_mask by (apply fw; auto); apply vf; auto. }
  set (r := R32 (vrecpe y)) in *. set (q := R32 x / R32 y) in *.
  assert (X : R32 x * r = q * (r * R32 y)) by (unfold q; field; auto).
  set (k := r * R32 y) in *. assert (K : Rabs k <= 1 + / 350). { apply Rabs_le_inv in E. apply Rabs_le. lra. }
  assert (P : Rabs (q * k) <= Rabs q * (1 + / 350)) by (rewrite Rabs_mult; apply Rmult_le_compat_l; [apply Rabs_pos|auto]).
  pose proof (rnd_rel (q * k)) as G. pose proof (Rabs_pos q) as Q0. pose proof (bpow_gt_0 radix2 (-150)) as T.
  assert (T2 : bpow radix2 (-149) = 2 * bpow radix2 (-150)) by (change (-149)%Z with (1 + -150)%Z; rewrite bpow_plus; reflexivity).
  assert (D : Rabs (q * k - q) <= Rabs q * / 350).
  { replace (q * k - q) with (q * (k - 1)) by ring. rewrite Rabs_mult. apply Rmult_le_compat_l; auto. }
  pose proof (Bmult_correct 24 128 _ _ mode_NE x (vrecpe y)) as C. change (R32 (vrecpe y)) with r in C. rewrite X in C.
  change (round_mode mode_NE) with ZnearestE in C. rewrite Rlt_bool_true in C.
  - destruct C as (C1 & C2 & _). unfold within, real, fmul. rewrite C2, Fx, F1. split; auto. rewrite C1.
    replace (rnd32 (q * k) - q) with ((rnd32 (q * k) - q * k) + (q * k - q)) by ring. apply Rle_trans with (1 := Rabs_triang _ _). lra.
  - assert (S : Rabs (rnd32 (q * k)) <= 2 * Rabs q + bpow radix2 (-150)).
    { replace (rnd32 (q * k)) with ((rnd32 (q * k) - q * k) + q * k) by ring. apply Rle_trans with (1 := Rabs_triang _ _). lra. }
    apply Rle_lt_trans with (1 := S). assert (bpow radix2 (-150) <= bpow radix2 120) by (apply bpow_le; lia).
    replace (bpow radix2 128) with (256 * bpow radix2 120); [pose proof (bpow_gt_0 radix2 120); lra|].
    change 128%Z with (8 + 120)%Z. rewrite bpow_plus. reflexivity.
Qed.
End Machine.
