(** ftom~ and rmstodb~. *)
From Verif Require Import SndModel SndSpec SndProofs SndProofs2 SndProofs3 SndProofs4 SndProofs5 SndProofs6 SndProofs8 SndProofs10 Float32Facts.
From Flocq Require Import Core.
From Coq Require Import Reals Lia Lra.
Local Open Scope R_scope.
Lemma lg_close a b e : 0 < b -> 0 <= e <= / 2 -> Rabs (a - b) <= e * b -> Rabs (lg a - lg b) <= 3 * e.
Proof.
  intros B E D. apply Rabs_le_inv in D. pose proof ln2_bounds as L2.
  assert (A : 0 < a). { assert (e * b <= / 2 * b) by (apply Rmult_le_compat_r; lra). lra. }
  assert (I : 0 < / b) by (apply Rinv_0_lt_compat; auto). assert (J : 0 < / a) by (apply Rinv_0_lt_compat; auto).
  assert (U : ln (a * / b) <= a * / b - 1) by (apply ln_le_sub1, Rmult_lt_0_compat; auto).
  assert (V : ln (b * / a) <= b * / a - 1) by (apply ln_le_sub1, Rmult_lt_0_compat; auto).
  rewrite ln_mult, ln_Rinv in U, V by auto.
  assert (U2 : a * / b - 1 <= e). { replace (a * / b - 1) with ((a - b) * / b) by (field; lra). apply Rmult_le_reg_r with b; auto. rewrite Rmult_assoc, Rinv_l by lra. lra. }
  assert (V2 : b * / a - 1 <= 2 * e). { replace (b * / a - 1) with ((b - a) * / a) by (field; lra). apply Rmult_le_reg_r with a; auto. rewrite Rmult_assoc, Rinv_l by lra.
    assert (e * b <= 2 * e * a); [|lra]. rewrite (Rmult_comm 2 e), Rmult_assoc. apply Rmult_le_compat_l; [lra|]. assert (e * b <= / 2 * b) by (apply Rmult_le_compat_r; lra). lra. }
  unfold log_2. replace (ln a / ln 2 - ln b / ln 2) with ((ln a - ln b) * / ln 2) by (field; lra).
  assert (K : 0 < / ln 2 <= 1.45). { split; [apply Rinv_0_lt_compat; lra|]. apply Rmult_le_reg_r with (ln 2); [lra|]. rewrite Rinv_l by lra. lra. }
  rewrite Rabs_mult, (Rabs_pos_eq (/ ln 2)) by lra.
  apply Rle_trans with (2 * e * 1.45); [|lra]. apply Rmult_le_compat; try lra; [apply Rabs_pos|]. apply Rabs_le. lra.
Qed.
Lemma lg_pow a n : 0 < a -> lg (a ^ n) = INR n * lg a.
Proof.
  intro A. induction n; [cbn [pow]; unfold log_2; rewrite ln_1; cbn [INR]; field; pose proof ln2_pos; lra|].
  change (a ^ S n) with (a * a ^ n). rewrite lg_mult, IHn by (auto using pow_lt). rewrite S_INR. ring.
Qed.
Lemma lg_440 : Rabs (12 * lg (440 * 0.122312205855086) - 69) <= 0.000001.
Proof.
  replace 12 with (INR 12) by (cbn; lra). rewrite <- lg_pow by lra. rewrite <- (lg_bpow 69).
  eapply Rle_trans; [apply (lg_close _ _ 0.0000001)|lra]; [apply bpow_gt_0|lra|].
  replace (bpow radix2 69) with 590295810358705651712 by reflexivity. simpl (_ ^ 12). apply Rabs_le. lra.
Qed.
Lemma lg_10 : 3.3219 <= lg 10 <= 3.3220.
Proof.
  assert (LE : forall a b, 0 < a <= b -> lg a <= lg b).
  { intros a b [A B]. unfold log_2. apply Rmult_le_compat_r; [left; apply Rinv_0_lt_compat, ln2_pos|]. destruct (Rle_lt_or_eq_dec _ _ B) as [L| ->]; [left; apply ln_increasing; lra|lra]. }
  set (r := Build_radix 10 eq_refl).
  assert (Q : forall n, lg (bpow r n) = IZR n * lg 10).
  { intro n. unfold log_2. rewrite bpow_powerRZ. change (IZR r) with 10. rewrite powerRZ_Rpower by lra. unfold Rpower. rewrite ln_exp. field. pose proof ln2_pos. lra. }
  assert (B1 : lg (bpow radix2 485) <= lg (bpow r 146)).
  { apply LE. split; [apply bpow_gt_0|]. rewrite <- !IZR_Zpower by lia. apply IZR_le. apply Z.leb_le. vm_compute. reflexivity. }
  assert (B2 : lg (bpow r 643) <= lg (bpow radix2 2136)).
  { apply LE. split; [apply bpow_gt_0|]. rewrite <- !IZR_Zpower by lia. apply IZR_le. apply Z.leb_le. vm_compute. reflexivity. }
  rewrite Q, lg_bpow in B1, B2. lra.
Qed.
Lemma c_ftom : near (decimal 122312205855086 15) 0.122312205855086 (/ 200000000). Proof. constant. Qed.
Lemma c_db : near (decimal 6020599913279624 15) 6.020599913279624 (/ 4000000). Proof. constant. Qed.
Lemma int_near z : (Z.abs z <= 1000)%Z -> near (of_int z) (IZR z) 0.
Proof.
  intro H. destruct (of_int_exact z) as [A B]; [change (2 ^ 24)%Z with 16777216%Z; lia|]. split; auto. rewrite A, Rminus_diag_eq, Rabs_R0 by auto. lra.
Qed.
Lemma near_trans x r d s e f : near x r d -> Rabs (r - s) <= e -> d + e <= f -> near x s f.
Proof. intros [A B] H L. split; auto. replace (R32 x - s) with ((R32 x - r) + (r - s)) by ring. apply Rle_trans with (1 := Rabs_triang _ _). lra. Qed.
(** The product of a large enough number and a constant. *)
Lemma scaled x k r : is_finite x = true -> near k r (/ 200000000) -> 0.1223 <= r <= 0.1224 -> bpow radix2 (-120) <= R32 x ->
  is_finite (fmul x k) = true /\ bpow radix2 (-126) <= R32 (fmul x k) /\ Rabs (R32 (fmul x k) - R32 x * r) <= 0.0000002 * (R32 x * r).
Proof.
  intros Fx [Fk Hk] Hr B. apply Rabs_le_inv in Hk. set (X := R32 x) in *. set (K := R32 k) in *.
  pose proof (bpow_gt_0 radix2 (-120)) as P0. pose proof (abs_B2R_lt_emax 24 128 x) as U. fold X in U. rewrite Rabs_pos_eq in U by lra.
  pose proof (Bmult_correct 24 128 _ _ mode_NE x k) as C. change (round_mode mode_NE) with ZnearestE in C. fold X K in C.
  assert (PK : X * 0.1222 <= X * K <= X * 0.1225) by (split; apply Rmult_le_compat_l; lra).
  assert (DK : Rabs (X * K - X * r) <= X * / 200000000). { replace (X * K - X * r) with (X * (K - r)) by ring. rewrite Rabs_mult, (Rabs_pos_eq X) by lra. apply Rmult_le_compat_l; [lra|apply Rabs_le; lra]. }
  assert (RK : X * 0.1223 <= X * r) by (apply Rmult_le_compat_l; lra).
  pose proof (rnd_rel (X * K)) as G. rewrite (Rabs_pos_eq (X * K)) in G by lra.
  assert (T : bpow radix2 (-150) <= X * / 1000000000).
  { change (-150)%Z with (-30 + -120)%Z. rewrite bpow_plus. replace (bpow radix2 (-30)) with (/ 1073741824) by reflexivity. 
    rewrite Rmult_comm. apply Rmult_le_compat; lra. }
  apply Rabs_le_inv in G. apply Rabs_le_inv in DK.
  rewrite Rlt_bool_true in C by (apply Rabs_lt; lra). destruct C as (C1 & C2 & _). unfold fmul. rewrite C1, C2, Fx, Fk.
  split; auto. split.
  - apply Rle_trans with (X * / 64); [|lra]. change (-126)%Z with (-6 + -120)%Z. rewrite bpow_plus. replace (bpow radix2 (-6)) with (/ 64) by reflexivity. lra.
  - apply Rabs_le. lra.
Qed.
Lemma lg_mono a b : 0 < a <= b -> lg a <= lg b.
Proof.
  intros [A B]. unfold log_2. apply Rmult_le_compat_r; [left; apply Rinv_0_lt_compat, ln2_pos|]. destruct (Rle_lt_or_eq_dec _ _ B) as [L| ->]; [left; apply ln_increasing; lra|lra].
Qed.
Lemma lg_range x : is_finite x = true -> bpow radix2 (-126) <= R32 x -> Rabs (lg (R32 x)) <= 128.
Proof.
  intros F B. pose proof (abs_B2R_lt_emax 24 128 x) as U. pose proof (bpow_gt_0 radix2 (-126)). rewrite Rabs_pos_eq in U by lra.
  pose proof (lg_mono _ _ (conj H B)) as L1. assert (L2 : lg (R32 x) <= lg (bpow radix2 128)) by (apply lg_mono; lra).
  rewrite lg_bpow in L1, L2. apply Rabs_le. lra.
Qed.
Section Machine.
Variable M : machine.
Hypothesis OK : machine_ok M.
Notation F := (enc (t_nan M)).
Lemma max_fun : exists mx, picks_max mx /\ (forall x y, hv_max M (F x) (F y) = F (mx x y)) /\ (forall x, fltb fzero x = true -> mx x fzero = x).
Proof.
  unfold hv_max. destruct (t_arch M).
  1, 2: exists max_x86; split; [apply max_x86_ok|]; split; [intros; rewrite !vf; auto|]; intros x H; unfold max_x86; rewrite H; reflexivity.
  1, 2: exists max_neon; split; [apply max_neon_ok|]; split; [intros; rewrite !vf; auto|]; intros x H; unfold max_neon; rewrite H; destruct x; try discriminate; reflexivity.
  exists fmax. split; [apply fmax_ok|]. split; [intros; rewrite !vf; auto|]. intros x H. unfold fmax.
  destruct (is_nan x) eqn:N; [destruct x; discriminate|]. cbn [is_nan]. rewrite ltb_ext in * by auto. destruct (Rlt_bool_spec (ext x) (ext fzero)); auto.
  apply rlt_true in H. lra.
Qed.
Lemma pos_lt x : is_finite x = true -> 0 < R32 x -> fltb fzero x = true.
Proof. intros A B. rewrite ltb_ext by (auto; destruct x; auto; discriminate). rewrite (ext_finite x A). apply rlt_true. exact B. Qed.
Lemma ftom_ok x : fast_arch M -> is_finite x = true -> bpow radix2 (-120) <= real x ->
  exists y, shows_sample M ftom_sig [x] y /\ within 0.53 y (69 + 12 * lg (real x / 440)).
Proof.
  intros A Fx B. unfold real in *. pose proof (bpow_gt_0 radix2 (-120)) as P0. destruct max_fun as (mx & _ & X1 & X2).
  destruct (scaled x (decimal 122312205855086 15) 0.122312205855086 Fx c_ftom ltac:(lra) B) as (S1 & S2 & S3).
  destruct (log2_ok M (fmul x (decimal 122312205855086 15)) A S1 S2) as (l & L1 & L2).
  pose proof (lg_range _ S1 S2) as R.
  exists (fmul l (of_int 12)). split.
  - exists (F (fmul l (of_int 12))). split; [|apply vf; auto].
    assert (E : snd_out M ftom_sig [F x] 0 = (let! w := hv_log2 M (F (fmul (of_bits (hv_max M (F x) (F fzero))) (of_bits (F (decimal 122312205855086 15))))) in
      Ok (F (fmul (of_bits w) (of_bits (F (of_int 12))))))). { run_patch. match goal with |- context [hv_log2 ?a ?b] => destruct (hv_log2 a b) end; reflexivity. }
    cbn [map]. rewrite E, X1, !vf by auto. rewrite X2 by (apply pos_lt; auto; lra). rewrite L1. cbn [obind]. rewrite vf by auto. reflexivity.
  - assert (N : near (fmul l (of_int 12)) (lg (R32 (fmul x (decimal 122312205855086 15))) * 12) 0.524).
    { eapply near_mul with (A := 128) (B := 12); [exact L2|apply int_near; lia|auto|apply Rabs_le; lra|lra|unfold u; lra]. }
    unfold within, real. eapply near_trans; [exact N| |instantiate (1 := 0.001); lra].
    assert (HX : 0 < R32 x * 0.122312205855086) by lra. pose proof (lg_close _ _ 0.0000002 HX ltac:(lra) S3) as C. pose proof lg_440 as G.
    assert (Q : lg (R32 x * 0.122312205855086) = lg (R32 x / 440) + lg (440 * 0.122312205855086)). { rewrite <- lg_mult by (unfold Rdiv; lra). f_equal. field. }
    rewrite Q in C. apply Rabs_le_inv in C. apply Rabs_le_inv in G. apply Rabs_le. lra.
Qed.
Lemma log_avx_fails x : t_arch M = AVX -> snd_out M ftom_sig [F x] 0 = AssertFail /\ snd_out M rmstodb_sig [F x] 0 = AssertFail.
Proof. intro A. split; run_patch; unfold hv_log2; rewrite A; reflexivity. Qed.
Lemma rms_eval x l t mx : (forall x y, hv_max M (F x) (F y) = F (mx x y)) -> hv_log2 M (F (mx x fzero)) = Ok (F l) -> fma_x M l (decimal 6020599913279624 15) (of_int 100) = t ->
  snd_out M rmstodb_sig [F x] 0 = Ok (F (mx t fzero)).
Proof.
  intros X1 L T.
  assert (E : snd_out M rmstodb_sig [F x] 0 = (let! w := hv_log2 M (hv_max M (F x) (F fzero)) in
      Ok (hv_max M (hv_fma M w (F (decimal 6020599913279624 15)) (F (of_int 100))) (F fzero)))). { run_patch. match goal with |- context [hv_log2 ?a ?b] => destruct (hv_log2 a b) end; reflexivity. }
  rewrite E, X1, L. cbn [obind]. rewrite fma_eval, X1, T by auto. reflexivity.
Qed.
Lemma near_max mx x r d : picks_max mx -> near x r d -> near (mx x fzero) (Rmax r 0) d.
Proof.
  intros P [A B]. destruct (P x fzero) as [C D]; [destruct x; auto; discriminate|reflexivity|].
  rewrite (ext_finite x A) in D. change (ext fzero) with 0 in D.
  assert (Fm : is_finite (mx x fzero) = true).
  { destruct (mx x fzero) as [s|s| |s m e H] eqn:Q; try discriminate; auto. exfalso. cbn [ext] in D. pose proof (finite_lt x A). pose proof big_pos.
    destruct s; unfold Rmax in D; destruct (Rle_dec (R32 x) 0); lra. }
  rewrite (ext_finite _ Fm) in D. split; auto. rewrite D. apply Rabs_le_inv in B. apply Rabs_le.
  unfold Rmax. destruct (Rle_dec (R32 x) 0), (Rle_dec r 0); lra.
Qed.
Lemma rmstodb_ok x : fast_arch M -> is_finite x = true -> bpow radix2 (-126) <= real x ->
  exists y, shows_sample M rmstodb_sig [x] y /\ within 0.3 y (Rmax (100 + 20 * (ln (real x) / ln 10)) 0).
Proof.
  intros A Fx B. unfold real in *. pose proof (bpow_gt_0 radix2 (-126)) as P0. destruct max_fun as (mx & X0 & X1 & X2).
  destruct (log2_ok M x A Fx B) as (l & L1 & L2). pose proof (lg_range _ Fx B) as R.
  eexists. split.
  - eexists. split; [apply (rms_eval x l (fma_x M l (decimal 6020599913279624 15) (of_int 100)) mx X1); [rewrite X2; [exact L1|apply pos_lt; auto; lra]|reflexivity]|apply vf; auto].
  - apply near_max; auto.
    assert (N : near (fma_x M l (decimal 6020599913279624 15) (of_int 100)) (lg (R32 x) * 6.020599913279624 + IZR 100) 0.264).
    { eapply near_fma with (A := 128) (B := 6.03) (K := 871) (P := 0.2635); [exact L2|exact c_db|apply int_near; lia|auto|apply Rabs_le; lra| |lra|lra|lra|unfold u; lra|lra|unfold u; lra].
      apply Rabs_le_inv in R. apply Rabs_le. lra. }
    eapply near_trans; [exact N| |instantiate (1 := 0.03); lra].
    pose proof lg_10 as T.
    assert (Q : ln (R32 x) / ln 10 = lg (R32 x) * / lg 10). { pose proof ln2_pos. assert (0 < ln 10) by (rewrite <- ln_1; apply ln_increasing; lra). unfold log_2. field. split; lra. }
    rewrite Q. replace (lg (R32 x) * 6.020599913279624 + IZR 100 - (100 + 20 * (lg (R32 x) * / lg 10))) with (lg (R32 x) * (6.020599913279624 - 20 * / lg 10)) by lra.
    assert (I : 0.30102 <= / lg 10 <= 0.30104).
    { split; apply Rmult_le_reg_r with (lg 10); try lra; rewrite Rinv_l by lra; lra. }
    rewrite Rabs_mult. apply Rle_trans with (128 * 0.00023); [|lra]. apply Rmult_le_compat; try apply Rabs_pos; auto. apply Rabs_le. lra.
Qed.
Lemma rmstodb_zero x : fast_arch M -> fleb x fzero = true -> exists y, shows_sample M rmstodb_sig [x] y /\ feqb y fzero = true.
Proof.
  intros A L. destruct max_fun as (mx & X0 & X1 & X2).
  assert (Nx : is_nan x = false) by (destruct x; auto).
  assert (Z : mx x fzero = fzero).
  { assert (G : hv_max M (F x) (F fzero) = F fzero).
    { assert (S : fltb fzero x = false). { rewrite ltb_ext by auto. rewrite leb_ext, rle_true in L by auto. destruct (Rlt_bool_spec (ext fzero) (ext x)); auto; lra. }
      unfold hv_max. rewrite !vf by auto. destruct A as [-> | [-> | ->]]; unfold max_x86, max_neon; rewrite ?Nx, S; cbn [is_nan orb]; auto;
        destruct x as [s|s| |s m e H]; try reflexivity; destruct s; reflexivity. }
    rewrite X1 in G. rewrite <- (vf M OK (mx x fzero)), G. apply vf; auto. }
  set (l := fadd (fadd (of_int (0 - 127)) (of_bits (1065353216 + 0))) (decimal (-9569643) 7)).
  assert (Q : hv_log2 M (F (mx x fzero)) = Ok (F l)). { rewrite Z. unfold hv_log2. destruct A as [-> | [-> | ->]]; reflexivity. }
  destruct (mantissa_value 0 ltac:(lia)) as [D1 D2].
  assert (N1 : near (fadd (of_int (0 - 127)) (of_bits (1065353216 + 0))) (IZR (0 - 127) + 1) 0.00001).
  { eapply near_add with (A := 126) (d := 0) (e := 0); [apply int_near; lia| |apply Rabs_le; simpl; lra|lra|unfold u; lra].
    split; auto. rewrite D1. replace (1 + 0 / 8388608 - 1) with 0 by field. rewrite Rabs_R0. lra. }
  assert (N2 : near l (IZR (0 - 127) + 1 + -0.9569643) 0.0001).
  { eapply near_add with (A := 127); [exact N1|exact c_sigma|apply Rabs_le; simpl; lra|lra|unfold u; lra]. }
  assert (N3 : near (fma_x M l (decimal 6020599913279624 15) (of_int 100)) ((IZR (0 - 127) + 1 + -0.9569643) * 6.020599913279624 + IZR 100) 1).
  { eapply near_fma with (A := 127) (B := 6.03) (K := 871) (P := 0.5); [exact N2|exact c_db|apply int_near; lia|apply Rabs_le; simpl; lra|apply Rabs_le; lra| |lra|lra|lra|unfold u; lra|lra|unfold u; lra].
    apply Rabs_le. simpl; lra. }
  set (t := fma_x M l _ _) in *. destruct N3 as [T1 T2].
  assert (TN : is_nan t = false) by (destruct t; auto; discriminate).
  destruct (X0 t fzero TN eq_refl) as [E1 E2].
  exists (mx t fzero). split; [eexists; split; [apply (rms_eval x l t mx); auto|apply vf; auto]|].
  rewrite eqb_ext, req_true, E2 by auto. rewrite (ext_finite t T1). change (ext fzero) with 0. apply Rabs_le_inv in T2. simpl in T2.
  unfold Rmax. destruct (Rle_dec (R32 t) 0); lra.
Qed.
End Machine.
