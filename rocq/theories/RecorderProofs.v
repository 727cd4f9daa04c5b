(** How long [tabwrite~] records. *)
From Verif Require Import RecorderModel RecorderSpec TimeSpec Float32Facts Float64Facts TimeProofs TimeProofs2.
From Flocq Require Import Core.
From Coq Require Import Reals Lra.
Open Scope R_scope.

Notation rnd32 := (round radix2 fexp32 (round_mode mode_NE)).
Lemma rnd32_R (x : f32) : rnd32 (R32 x) = R32 x.
Proof. apply round_generic; [apply valid_rnd_N | apply generic_format_B2R]. Qed.
Lemma rnd32_opp x : rnd32 (- x) = - rnd32 x.
Proof. apply round_NE_opp. Qed.
Lemma rnd32_bound x k : Rabs x <= bpow radix2 k -> (-100 <= k <= 100)%Z -> Rabs (rnd32 x) <= bpow radix2 k.
Proof.
  intros H Hk. assert (E : Rabs (rnd32 x) = rnd32 (Rabs x)).
  { unfold Rabs. destruct (Rcase_abs x) as [L | L].
    - rewrite rnd32_opp. destruct (Rcase_abs (rnd32 x)) as [L' | L']; [reflexivity | ].
      assert (rnd32 x <= 0) by (rewrite <- round32_0; apply round32_le; lra). lra.
    - destruct (Rcase_abs (rnd32 x)) as [L' | L']; [ | reflexivity].
      assert (0 <= rnd32 x) by (rewrite <- round32_0; apply round32_le; lra). lra. }
  rewrite E. apply round32_lt; [split; [apply Rabs_pos | exact H] | exact Hk].
Qed.
Lemma fsub_R x y k : is_finite x = true -> is_finite y = true -> Rabs (R32 x - R32 y) <= bpow radix2 k -> (-100 <= k <= 100)%Z ->
  R32 (fsub x y) = rnd32 (R32 x - R32 y) /\ is_finite (fsub x y) = true.
Proof.
  intros Fx Fy H Hk. unfold fsub. pose proof (Bminus_correct 24 128 _ _ mode_NE x y Fx Fy) as C.
  rewrite Rlt_bool_true in C. { destruct C as (A & B & _). auto. }
  eapply Rle_lt_trans; [apply (rnd32_bound _ k H Hk) | ]. apply bpow_lt. lia.
Qed.
Lemma fmul_R x y k : is_finite x = true -> is_finite y = true -> Rabs (R32 x * R32 y) <= bpow radix2 k -> (-100 <= k <= 100)%Z ->
  R32 (fmul x y) = rnd32 (R32 x * R32 y) /\ is_finite (fmul x y) = true.
Proof.
  intros Fx Fy H Hk. unfold fmul. pose proof (Bmult_correct 24 128 _ _ mode_NE x y) as C.
  rewrite Rlt_bool_true in C. { destruct C as (A & B & _). rewrite Fx, Fy in B. auto. }
  eapply Rle_lt_trans; [apply (rnd32_bound _ k H Hk) | ]. apply bpow_lt. lia.
Qed.
Lemma fdiv_R' x y k : is_finite x = true -> R32 y <> 0 -> Rabs (R32 x / R32 y) <= bpow radix2 k -> (-100 <= k <= 100)%Z ->
  R32 (fdiv x y) = rnd32 (R32 x / R32 y) /\ is_finite (fdiv x y) = true.
Proof.
  intros Fx Ny H Hk. unfold fdiv. pose proof (Bdiv_correct 24 128 _ _ mode_NE x y Ny) as C.
  rewrite Rlt_bool_true in C. { destruct C as (A & B & _). rewrite Fx in B. auto. }
  eapply Rle_lt_trans; [apply (rnd32_bound _ k H Hk) | ]. apply bpow_lt. lia.
Qed.
Lemma divide_R x y : is_finite y = true -> R32 y <> 0 -> divide x y = fdiv x y.
Proof. intros F N. unfold divide, feqb. rewrite Beqb_correct by (exact F || reflexivity). rewrite Req_bool_false; [reflexivity | exact N]. Qed.

(** Samples per millisecond. *)
Lemma spm_ok sr r : whole_rate sr r -> (1 <= r <= 1048576)%Z ->
  let spm := divide (narrow sr) (of_int 1000) in
  is_finite spm = true /\ near (bpow radix2 (-24)) (IZR r / 1000) (R32 spm).
Proof.
  intros [Fs Er] Hr. cbv zeta. assert (B : 1 <= IZR r <= 1048576) by (split; apply IZR_le; lia).
  destruct (narrow_R sr 20 Fs) as [E1 F1]; [rewrite Er; replace (bpow radix2 20) with 1048576 by reflexivity; lra | lia | ].
  rewrite Er in E1. replace (rnd32 (IZR r)) with (IZR r) in E1.
  2: { symmetry. apply round_generic; [apply valid_rnd_N | ]. replace (IZR r) with (IZR r * bpow radix2 0) by (cbn; lra). apply fmt32; lia. }
  destruct (of_int_exact 1000) as [E2 F2]; [lia | ].
  rewrite divide_R by (exact F2 || (rewrite E2; lra)).
  destruct (fdiv_R (narrow sr) (of_int 1000) 20 F1) as [E3 F3]; [rewrite E2; lra | rewrite E1, E2; replace (bpow radix2 20) with 1048576 by reflexivity; lra | lia | ].
  rewrite E1, E2 in E3. split; [exact F3 | ]. rewrite E3. apply round32_near. pose proof bp100. lra.
Qed.

Lemma near_inv k x y : 0 <= k <= / 4 -> 0 < x -> near k x y -> near (2 * k) (/ x) (/ y).
Proof.
  intros Hk Hx [A B]. assert (Hy : 0 < y) by nra. unfold near.
  assert (E : / y = / x * (x / y)) by (field; lra). rewrite E.
  assert (Px : 0 < / x) by (now apply Rinv_0_lt_compat).
  assert (x * (1 - k) <= y) by exact A.
  split; apply Rmult_le_compat_l; try lra; apply Rmult_le_reg_r with y; try lra; unfold Rdiv; rewrite Rmult_assoc, Rinv_l, Rmult_1_r by lra; nra.
Qed.

(** The time until the writer is stopped, for a start position at or before the end. *)
Lemma stop_delay_spec sr r size f : whole_rate sr r -> (1 <= r <= 1048576)%Z -> (0 <= size <= 2097152)%Z ->
  is_finite f = true -> Rabs (R32 f) <= 2147483648 ->
  exists d, stop_delay sr (of_int size) (divide (narrow sr) (of_int 1000)) f = Ok d /\ (0 <= d < 4294967296)%Z /\
    (IZR size <= R32 f -> d = 0%Z) /\
    (R32 f <= IZR size -> let s := IZR size - R32 f in s * (1 - 5 / 16777216) - 1 < IZR d <= s * (1 + 5 / 16777216)).
Proof.
  intros W Hr Hs Ff Hf. destruct (spm_ok sr r W Hr) as [Fp Np]. set (spm := divide (narrow sr) (of_int 1000)) in *.
  assert (B : 1 <= IZR r <= 1048576) by (split; apply IZR_le; lia).
  assert (S : 0 <= IZR size <= 2097152) by (split; apply IZR_le; lia).
  destruct (of_int_exact size) as [Es Fs]; [lia | ]. destruct (of_int_exact (-1)) as [E1 F1]; [lia | ].
  assert (Pp : 0 < R32 spm). { destruct Np as [A _]. rewrite bp24 in A. lra. }
  apply Rabs_le_inv in Hf.
  assert (A1 : Rabs (R32 f - R32 (of_int size)) <= bpow radix2 32).
  { rewrite Es. replace (bpow radix2 32) with 4294967296 by reflexivity. apply Rabs_le. lra. }
  destruct (fsub_R f (of_int size) 32 Ff Fs A1) as [Ea Fa]; [lia | ]. rewrite Es in Ea.
  set (a := fsub f (of_int size)) in *.
  destruct (fmul_R a (of_int (-1)) 32 Fa F1) as [Eb Fb]; [ | lia | ].
  { rewrite E1. replace (R32 a * -1) with (- R32 a) by lra. rewrite Rabs_Ropp, Ea. apply rnd32_bound; [rewrite <- Es; exact A1 | lia]. }
  rewrite E1 in Eb. replace (R32 a * -1) with (- R32 a) in Eb by lra. rewrite rnd32_opp, rnd32_R, Ea, <- rnd32_opp in Eb.
  replace (- (R32 f - IZR size)) with (IZR size - R32 f) in Eb by lra.
  set (s := IZR size - R32 f) in *. set (b := fmul a (of_int (-1))) in *.
  assert (Bb : Rabs (R32 b) <= bpow radix2 32).
  { rewrite Eb. apply rnd32_bound; [ | lia]. replace (bpow radix2 32) with 4294967296 by reflexivity. apply Rabs_le. unfold s. lra. }
  assert (Q : / R32 spm <= 2000).
  { apply Rmult_le_reg_r with (R32 spm); [lra | ]. rewrite Rinv_l by lra. destruct Np as [A _]. rewrite bp24 in A. lra. }
  assert (Q0 : 0 < / R32 spm) by (now apply Rinv_0_lt_compat).
  assert (Ac : Rabs (R32 b / R32 spm) <= bpow radix2 44).
  { unfold Rdiv. rewrite Rabs_mult, (Rabs_pos_eq (/ R32 spm)) by lra. replace (bpow radix2 44) with (bpow radix2 32 * 4096) by (change 44%Z with (32 + 12)%Z; rewrite bpow_plus; reflexivity).
    apply Rmult_le_compat; [apply Rabs_pos | lra | exact Bb | lra]. }
  destruct (fdiv_R' b spm 44 Fb) as [Ec Fc]; [lra | exact Ac | lia | ].
  unfold stop_delay. fold a b spm. rewrite divide_R by (exact Fp || lra). set (ms := fdiv b spm) in *.
  destruct (Rle_lt_dec s 0) as [Neg | Pos].
  - (* at or behind the end *)
    assert (R32 b <= 0) by (rewrite Eb, <- round32_0; apply round32_le; lra).
    assert (R32 ms <= 0). { rewrite Ec, <- round32_0. apply round32_le. unfold Rdiv. nra. }
    exists 0%Z. split; [ | split; [lia | split; [reflexivity | ]]].
    + rewrite (ms_to_samples_exact sr r ms W ltac:(lia) Fc); rewrite Rmax_left by lra; unfold samples_in; replace (0 * IZR r / 1000) with 0 by lra; [now rewrite (Zfloor_IZR 0) | lra].
    + intros L. cbv zeta. assert (s = 0) as -> by (unfold s in *; lra). lra.
  - assert (Pb : 0 <= R32 b) by (rewrite Eb, <- round32_0; apply round32_le; lra).
    assert (Pm : 0 <= R32 ms). { rewrite Ec, <- round32_0. apply round32_le. unfold Rdiv. nra. }
    assert (Em : Rmax 0 (R32 ms) = R32 ms) by (now apply Rmax_right).
    set (y := samples_in (R32 ms) (IZR r)).
    assert (Y : y < 1 /\ s < 1 \/ near (5 / 16777216) s y).
    { destruct (Rlt_le_dec s (bpow radix2 (-60))) as [Sm | Sm].
      - left. assert (R32 b <= bpow radix2 (-60)) by (rewrite Eb; apply round32_lt; [lra | lia]).
        assert (R32 b / R32 spm <= bpow radix2 (-48)).
        { change (-48)%Z with (-60 + 12)%Z. rewrite bpow_plus. replace (bpow radix2 12) with 4096 by reflexivity. unfold Rdiv. apply Rmult_le_compat; lra. }
        assert (M : R32 ms <= bpow radix2 (-48)) by (rewrite Ec; apply round32_lt; [split; [unfold Rdiv; nra | assumption] | lia]).
        replace (bpow radix2 (-48)) with (/ 281474976710656) in M by reflexivity. unfold y, samples_in.
        assert (bpow radix2 (-60) <= / 1000000) by (replace (bpow radix2 (-60)) with (/ 1152921504606846976) by reflexivity; lra).
        split; [ | lra]. apply Rle_lt_trans with (/ 281474976710656 * 1048576 / 1000); [ | lra].
        unfold Rdiv. apply Rmult_le_compat_r; [lra | ]. apply Rmult_le_compat; lra.
      - right. pose proof (bpow_gt_0 radix2 (-24)) as K0.
        assert (N1 : near (bpow radix2 (-24)) s (R32 b)) by (rewrite Eb; apply round32_near; eapply Rle_trans; [apply bpow_le | exact Sm]; lia).
        assert (N2 : near (2 * bpow radix2 (-24)) (/ (IZR r / 1000)) (/ R32 spm)) by ((apply near_inv; [rewrite bp24; lra | lra | exact Np])).
        assert (Rr : 0 < / (IZR r / 1000)) by (apply Rinv_0_lt_compat; lra).
        apply (near_mult _ _ _ (/ (IZR r / 1000))) in N1; [ | lra].
        apply (near_mult _ _ _ (R32 b)) in N2; [ | exact Pb]. rewrite (Rmult_comm (/ (IZR r / 1000))), (Rmult_comm (/ R32 spm)) in N2.
        assert (P3 : 0 <= s * / (IZR r / 1000)) by (apply Rmult_le_pos; lra).
        pose proof (near_trans (bpow radix2 (-24)) (2 * bpow radix2 (-24)) _ _ _ ltac:(lra) ltac:(rewrite bp24; lra) P3 N1 N2) as N3.
        assert (Lb : bpow radix2 (-61) <= R32 b).
        { change (-61)%Z with (-60 + -1)%Z. rewrite bpow_plus. replace (bpow radix2 (-1)) with (/ 2) by reflexivity. destruct N1 as [A _].
          assert (s * (1 - bpow radix2 (-24)) <= R32 b) by (apply Rmult_le_reg_r with (/ (IZR r / 1000)); [exact Rr | ]; lra).
          rewrite bp24 in H. lra. }
        assert (Lc : bpow radix2 (-100) <= R32 b * / R32 spm).
        { assert (/ 2048 <= / R32 spm). { apply Rinv_le_contravar; [lra | ]. destruct Np as [_ U]. rewrite bp24 in U. lra. }
          apply Rle_trans with (bpow radix2 (-61) * / 2048).
          - replace (/ 2048) with (bpow radix2 (-11)) by reflexivity. rewrite <- bpow_plus. apply bpow_le. lia.
          - apply Rmult_le_compat; [apply bpow_ge_0 | lra | exact Lb | exact H]. }
        pose proof (round32_near _ Lc) as N4. change (R32 b * / R32 spm) with (R32 b / R32 spm) in N4 at 2. rewrite <- Ec in N4.
        pose proof (near_trans (bpow radix2 (-24) + 2 * bpow radix2 (-24) + bpow radix2 (-24) * (2 * bpow radix2 (-24))) (bpow radix2 (-24)) _ _ _ ltac:(rewrite bp24; lra) ltac:(rewrite bp24; lra) P3 N3 N4) as N5.
        apply (near_mult _ _ _ (IZR r / 1000)) in N5; [ | lra]. rewrite Rmult_assoc, Rinv_l, Rmult_1_r in N5 by lra.
        unfold y, samples_in. replace (R32 ms * IZR r / 1000) with (R32 ms * (IZR r / 1000)) by lra.
        eapply near_weaken; [ | | exact N5]; [rewrite bp24; lra | lra]. }
    assert (Py : 0 <= y) by (unfold y, samples_in; apply Rmult_le_pos; [apply Rmult_le_pos; lra | lra]).
    assert (Ss : s <= 2149580800) by (unfold s; lra).
    assert (Uy : y < 4000000000) by (destruct Y as [[Y _] | [_ Y]]; lra).
    exists (Zfloor y). pose proof (Zfloor_lb y) as FL. pose proof (Zfloor_ub y) as FU.
    assert (Z0 : (0 <= Zfloor y)%Z) by (apply Zfloor_lub; exact Py).
    assert (Z1 : (Zfloor y < 4294967296)%Z) by (apply lt_IZR; lra).
    split; [ | split; [lia | split; [unfold s in *; intros; lra | ]]].
    + rewrite (ms_to_samples_exact sr r ms W ltac:(lia) Fc); rewrite Em; [reflexivity | fold y; lra].
    + intros _. cbv zeta. destruct Y as [[Y1 Y2] | [Y1 Y2]].
      * assert (Zfloor y = 0%Z) as -> by (apply Zfloor_imp; rewrite plus_IZR; lra). lra.
      * lra.
Qed.
