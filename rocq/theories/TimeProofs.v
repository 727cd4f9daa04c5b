(** Converting times. *)
From Verif Require Import TimeModel TimeSpec Float32Facts Float64Facts.
From Flocq Require Import Core.
From Coq Require Import Reals Lra.
Open Scope R_scope.

Lemma d1000 : R64 (d_of_int 1000) = 1000 /\ is_finite (d_of_int 1000) = true.
Proof. apply d_of_int_exact. lia. Qed.

Lemma fmax0 (x : f32) : is_finite x = true -> is_finite (fmax fzero x) = true /\ R32 (fmax fzero x) = Rmax 0 (R32 x).
Proof.
  intros F. unfold fmax. cbn [is_nan fzero]. replace (is_nan x) with false by (destruct x; try discriminate; reflexivity).
  unfold fltb. rewrite Bltb_correct by (reflexivity || exact F). change (R32 fzero) with 0.
  destruct (Rlt_bool_spec 0 (R32 x)) as [L | L].
  - split; [exact F | ]. rewrite Rmax_right; lra.
  - split; [reflexivity | ]. cbn. rewrite Rmax_left; lra.
Qed.
Lemma dmax0 (x : f64) : is_finite x = true -> is_finite (dmax dzero x) = true /\ R64 (dmax dzero x) = Rmax 0 (R64 x).
Proof.
  intros F. unfold dmax. cbn [is_nan dzero]. replace (is_nan x) with false by (destruct x; try discriminate; reflexivity).
  unfold dltb. rewrite Bltb_correct by (reflexivity || exact F). change (R64 dzero) with 0.
  destruct (Rlt_bool_spec 0 (R64 x)) as [L | L].
  - split; [exact F | ]. rewrite Rmax_right; lra.
  - split; [reflexivity | ]. cbn. rewrite Rmax_left; lra.
Qed.
Lemma d_to_u32_R (x : f64) : is_finite x = true -> 0 <= R64 x < 4294967296 -> d_to_u32 x = Ok (Zfloor (R64 x)).
Proof.
  intros F H. unfold d_to_u32. rewrite F, trunc_R64, Ztrunc_floor by lra.
  assert (0 <= Zfloor (R64 x))%Z by (apply Zfloor_lub; lra).
  assert (Zfloor (R64 x) < 4294967296)%Z by (apply lt_IZR; pose proof (Zfloor_lb (R64 x)); lra).
  rewrite (proj2 (Z.leb_le _ _)), (proj2 (Z.ltb_lt _ _)) by lia. reflexivity.
Qed.

(** A float is a multiple of a power of two. *)
Lemma f32_dyadic (x : f32) : is_finite x = true -> exists m e, R32 x = IZR m * bpow radix2 e /\ (Z.abs m < 2 ^ 24)%Z /\ (-149 <= e <= 104)%Z.
Proof.
  destruct x as [s | s | | s m e Hb]; try discriminate; intros _.
  - exists 0%Z, 0%Z. cbn. split; [lra | lia].
  - exists (cond_Zopp s (Z.pos m)), e. split; [reflexivity | ]. rewrite abs_cond_Zopp. cbn [Z.abs].
    unfold SpecFloat.bounded in Hb. apply andb_true_iff in Hb as [H1 H2]. apply Zle_bool_imp_le in H2.
    unfold SpecFloat.canonical_mantissa in H1. apply Zeq_bool_eq in H1. unfold SpecFloat.fexp, SpecFloat.emin in H1.
    rewrite Digits.Zpos_digits2_pos in H1.
    assert (D : (Digits.Zdigits radix2 (Z.pos m) <= 24)%Z) by lia.
    pose proof (Digits.Zpower_gt_Zdigits radix2 24 (Z.pos m) D) as Q. cbn [radix_val radix2 Z.abs] in Q. lia.
Qed.

(** Division by 1000 of a number with at most 51 bits never reaches the next integer. *)
Lemma div1000_floor a e : (0 <= a < 2 ^ 51)%Z -> IZR a * bpow radix2 e / 1000 < 4294967296 -> (-1000 <= e)%Z ->
  Zfloor (round radix2 fexp64 (round_mode mode_NE) (IZR a * bpow radix2 e / 1000)) = Zfloor (IZR a * bpow radix2 e / 1000).
Proof.
  intros Ha Hx He. set (p := IZR a * bpow radix2 e) in *. set (x := p / 1000) in *.
  assert (Pp : 0 <= p) by (apply Rmult_le_pos; [apply IZR_le; lia | apply bpow_ge_0]).
  assert (Px : 0 <= x) by (unfold x; lra).
  pose proof (Zfloor_lb x) as FL. pose proof (Zfloor_ub x) as FU. set (k := Zfloor x) in *.
  assert (Hk : (0 <= k)%Z) by (apply Zfloor_lub; lra).
  assert (Hk' : (k < 4294967296)%Z) by (apply lt_IZR; lra).
  apply Zfloor_imp. split.
  - rewrite <- (round64_id (IZR k)) by (apply fmt64_int; lia). apply round64_le. exact FL.
  - (* some double between x and k + 1 *)
    assert (Z : exists z, generic_format radix2 fexp64 z /\ x <= z /\ z < IZR (k + 1)).
    2: { destruct Z as (z & G & L & U). eapply Rle_lt_trans; [apply (round64_le x z L) | ]. now rewrite round64_id. }
    rewrite plus_IZR in *.
    (* p is a multiple of 2^e' *)
    assert (HE : exists b e', p = IZR b * bpow radix2 e' /\ (e' <= 0)%Z /\ (-1000 <= e')%Z /\ (e' = 0 \/ (b = a /\ e' = e))%Z).
    { destruct (Z.le_gt_cases e 0) as [L | L]; [exists a, e; split; [reflexivity | ]; lia | ].
      exists (a * 2 ^ e)%Z, 0%Z. split; [ | lia]. unfold p. rewrite mult_IZR, <- (IZR_Zpower radix2) by lia. cbn [radix_val radix2 bpow]. lra. }
    destruct HE as (b & e' & Ep & E0 & E1 & E2).
    assert (Hb : (0 <= b)%Z). { apply le_IZR. apply Rmult_le_reg_r with (bpow radix2 e'); [apply bpow_gt_0 | ]. rewrite <- Ep. lra. }
    destruct (Z.lt_ge_cases e' (-43)) as [Le | Le].
    + (* tiny: x <= 1/2 *)
      assert (x <= / 2). { destruct E2 as [-> | [-> ->]]; [lia | ]. unfold x, p.
        assert (IZR a * bpow radix2 e <= IZR (2 ^ 51) * bpow radix2 (-44)).
        { apply Rmult_le_compat; [apply IZR_le; lia | apply bpow_ge_0 | apply IZR_le; lia | apply bpow_le; lia]. }
        replace (IZR (2 ^ 51) * bpow radix2 (-44)) with 128 in H by (change (IZR (2 ^ 51)) with (bpow radix2 51); rewrite <- bpow_plus; reflexivity). lra. }
      exists (/ 2). split; [ | split; [exact H | ]].
      * replace (/ 2) with (IZR 1 * bpow radix2 (-1)) by (cbn; lra). apply fmt64; lia.
      * assert (0 <= IZR k) by (apply IZR_le; lia). lra.
    + (* z = k + 1 - 2^(e' - 10) *)
      exists (IZR (k + 1) - bpow radix2 (e' - 10)). rewrite plus_IZR.
      assert (D : bpow radix2 e' <= 1000 * (IZR k + 1) - p).
      { replace (1000 * (IZR k + 1) - p) with (IZR (1000 * (k + 1) * 2 ^ (- e') - b) * bpow radix2 e').
        - rewrite <- (Rmult_1_l (bpow radix2 e')) at 1. apply Rmult_le_compat_r; [apply bpow_ge_0 | ]. apply IZR_le.
          enough (0 < 1000 * (k + 1) * 2 ^ (- e') - b)%Z by lia. apply lt_IZR. rewrite minus_IZR, !mult_IZR, plus_IZR.
          change 2%Z with (radix_val radix2). rewrite (IZR_Zpower radix2) by lia.
          apply Rmult_lt_reg_r with (bpow radix2 e'); [apply bpow_gt_0 | ]. rewrite Rmult_0_l, Rmult_minus_distr_r, <- Ep, Rmult_assoc, <- bpow_plus.
          replace (- e' + e')%Z with 0%Z by lia. cbn [bpow]. unfold x in FU. lra.
        - rewrite minus_IZR, !mult_IZR, plus_IZR. change 2%Z with (radix_val radix2). rewrite (IZR_Zpower radix2) by lia.
          rewrite Rmult_minus_distr_r, <- Ep, Rmult_assoc, <- bpow_plus. replace (- e' + e')%Z with 0%Z by lia. cbn [bpow]. lra. }
      split; [ | split].
      * replace (IZR k + 1 - bpow radix2 (e' - 10)) with (IZR ((k + 1) * 2 ^ (10 - e') - 1) * bpow radix2 (e' - 10)).
        -- apply fmt64; [ | lia].
           assert (U : (0 <= (k + 1) * 2 ^ (10 - e') <= 2 ^ 53)%Z).
           2: { assert (0 < 2 ^ (10 - e'))%Z by (apply Z.pow_pos_nonneg; lia). lia. }
           split; [apply Z.mul_nonneg_nonneg; [lia | apply Z.pow_nonneg; lia] | ].
           destruct E2 as [-> | [-> ->]].
           ++ replace (2 ^ (10 - 0))%Z with 1024%Z by reflexivity. lia.
           ++ destruct (Z.eq_dec k 0) as [-> | K0].
              ** replace ((0 + 1) * 2 ^ (10 - e))%Z with (2 ^ (10 - e))%Z by lia. apply Z.pow_le_mono_r; lia.
              ** (* (k + 1) <= 2 x *)
                 apply le_IZR. rewrite mult_IZR. change 2%Z with (radix_val radix2). rewrite !(IZR_Zpower radix2) by lia. rewrite plus_IZR.
                 apply Rle_trans with (2 * x * bpow radix2 (10 - e)).
                 { apply Rmult_le_compat_r; [apply bpow_ge_0 | ]. assert (1 <= IZR k) by (apply IZR_le; lia). lra. }
                 unfold x, p. replace (2 * (IZR a * bpow radix2 e / 1000) * bpow radix2 (10 - e)) with (IZR a * (2 / 1000) * (bpow radix2 (10 - e) * bpow radix2 e)) by lra.
                 rewrite <- bpow_plus. replace (10 - e + e)%Z with 10%Z by lia.
                 assert (A : IZR a <= bpow radix2 51) by (apply (IZR_le a (2 ^ 51)); lia).
                 replace (bpow radix2 53) with (4 * bpow radix2 51) by (change 53%Z with (2 + 51)%Z; rewrite bpow_plus; change (bpow radix2 2) with 4; lra).
                 replace (bpow radix2 10) with 1024 by reflexivity. pose proof (bpow_gt_0 radix2 51). lra.
        -- rewrite minus_IZR, mult_IZR, plus_IZR. change 2%Z with (radix_val radix2). rewrite (IZR_Zpower radix2) by lia.
           rewrite Rmult_minus_distr_r, Rmult_assoc, <- bpow_plus. replace (10 - e' + (e' - 10))%Z with 0%Z by lia. cbn [bpow]. lra.
      * (* x <= z *)
        replace (e' - 10)%Z with (e' + -10)%Z by lia. rewrite bpow_plus. replace (bpow radix2 (-10)) with (/ 1024) by reflexivity.
        unfold x. pose proof (bpow_gt_0 radix2 e'). lra.
      * pose proof (bpow_gt_0 radix2 (e' - 10)). lra.
Qed.

Lemma widen_max0 ms : is_finite ms = true -> is_finite (widen (fmax fzero ms)) = true /\ R64 (widen (fmax fzero ms)) = Rmax 0 (R32 ms).
Proof. intros F. destruct (fmax0 ms F) as [A B]. destruct (widen_exact _ A) as [C D]. rewrite C, B. auto. Qed.

Lemma ms_to_samples_exact sr r ms : whole_rate sr r -> (1 <= r < 2 ^ 27)%Z -> is_finite ms = true ->
  samples_in (Rmax 0 (R32 ms)) (IZR r) < 4294967296 ->
  ms_to_samples sr ms = Ok (Zfloor (samples_in (Rmax 0 (R32 ms)) (IZR r))).
Proof.
  intros [Fs Er] Hr Fm Hx. unfold ms_to_samples, samples_in in *. destruct (widen_max0 ms Fm) as [Fw Ew].
  assert (HD : exists m e, Rmax 0 (R32 ms) = IZR m * bpow radix2 e /\ (0 <= m < 2 ^ 24)%Z /\ (-149 <= e <= 104)%Z).
  { destruct (f32_dyadic ms Fm) as (m & e & E & Hm & He). destruct (Z.le_gt_cases 0 m) as [L | L].
    - exists m, e. split; [ | lia]. rewrite Rmax_right; [exact E | ]. rewrite E. apply Rmult_le_pos; [apply IZR_le; lia | apply bpow_ge_0].
    - exists 0%Z, 0%Z. split; [ | lia]. rewrite Rmax_left; [cbn; lra | ]. rewrite E. assert (IZR m <= 0) by (apply IZR_le; lia).
      pose proof (bpow_ge_0 radix2 e). nra. }
  destruct HD as (m & e & E & Hm & He). set (x := Rmax 0 (R32 ms)) in *.
  assert (Ep : x * IZR r = IZR (m * r) * bpow radix2 e) by (rewrite E, mult_IZR; lra).
  assert (Ha : (0 <= m * r < 2 ^ 51)%Z) by (split; [lia | ]; change (2 ^ 51)%Z with (2 ^ 24 * 2 ^ 27)%Z; apply Z.mul_lt_mono_nonneg; lia).
  assert (P0 : 0 <= x * IZR r) by (rewrite Ep; apply Rmult_le_pos; [apply IZR_le; lia | apply bpow_ge_0]).
  destruct (dmul_R (widen (fmax fzero ms)) sr 200 Fw Fs) as [E1 F1]; [ | lia | ].
  { rewrite Ew, Er. split; [exact P0 | ]. rewrite Ep. apply Rle_trans with (bpow radix2 (51 + 104)); [ | apply bpow_le; lia]. rewrite bpow_plus.
    apply Rmult_le_compat; [apply IZR_le; lia | apply bpow_ge_0 | apply (IZR_le _ (2 ^ 51)); lia | apply bpow_le; lia]. }
  rewrite Ew, Er, Ep, round64_id in E1 by (apply fmt64; lia). rewrite <- Ep in E1.
  destruct (ddiv_R (dmul (widen (fmax fzero ms)) sr) (d_of_int 1000) 32 F1) as [E2 F2]; [rewrite (proj1 d1000); lra | | lia | ].
  { rewrite E1, (proj1 d1000). replace (bpow radix2 32) with 4294967296 by reflexivity. lra. }
  rewrite E1, (proj1 d1000) in E2.
  assert (EF : Zfloor (R64 (ddiv (dmul (widen (fmax fzero ms)) sr) (d_of_int 1000))) = Zfloor (x * IZR r / 1000)).
  { rewrite E2, Ep. apply div1000_floor; [exact Ha | now rewrite <- Ep | lia]. }
  rewrite d_to_u32_R; [now rewrite EF | exact F2 | ].
  split. { rewrite E2, <- round64_0. apply round64_le. lra. }
  assert (Q : (Zfloor (x * IZR r / 1000) < 4294967296)%Z) by (apply lt_IZR; pose proof (Zfloor_lb (x * IZR r / 1000)); lra).
  rewrite <- EF in Q. pose proof (Zfloor_ub (R64 (ddiv (dmul (widen (fmax fzero ms)) sr) (d_of_int 1000)))) as U.
  assert (Q' : (Zfloor (R64 (ddiv (dmul (widen (fmax fzero ms)) sr) (d_of_int 1000))) + 1 <= 4294967296)%Z) by lia. apply IZR_le in Q'. rewrite plus_IZR in Q'. lra.
Qed.
