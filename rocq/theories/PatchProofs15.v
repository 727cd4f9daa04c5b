(** How accurate the conversions are. *)
From Verif Require Import SndModel SndSpec SndProofs SndProofs2 SndProofs3 SndProofs4 SndProofs5 SndProofs6 SndProofs10 SndProofs11 Float32Facts Float64Facts ExpFacts.
From Verif Require Import PatchSpec4 PatchProofs13.
From Flocq Require Import Core.
From Coq Require Import Reals Lia Lra.
Local Open Scope R_scope.
Notation close := SndProofs6.near.

Lemma near_div x r d y s A D : close x r d -> is_finite y = true -> R32 y = s -> 1 <= s -> Rabs r <= A -> A + d <= 10000 ->
  d / s + u * ((A + d) / s) + / 1000000000000 <= D -> close (fdiv x y) (r / s) D.
Proof.
  intros [Fx Hx] Fy Hy S HA L HD. pose proof (Bdiv_correct 24 128 _ _ mode_NE x y) as C. change (round_mode mode_NE) with ZnearestE in C. rewrite Hy in C.
  specialize (C ltac:(lra)). set (a := R32 x) in *.
  assert (I : 0 < / s <= 1) by (split; [apply Rinv_0_lt_compat; lra | rewrite <- Rinv_1; apply Rinv_le_contravar; lra]).
  assert (Ha : Rabs a <= A + d) by (replace a with ((a - r) + r) by ring; apply Rle_trans with (1 := Rabs_triang _ _); lra).
  assert (P : Rabs (a / s) <= (A + d) / s) by (unfold Rdiv; rewrite Rabs_mult, (Rabs_pos_eq (/ s)) by lra; apply Rmult_le_compat_r; lra).
  assert (Q : (A + d) / s <= 10000). { unfold Rdiv. pose proof (Rabs_pos a). assert ((A + d) * / s <= (A + d) * 1) by (apply Rmult_le_compat_l; lra). lra. }
  destruct (rnd_small (a / s) ltac:(lra)) as [E N]. rewrite Rlt_bool_true in C by exact N. destruct C as (C1 & C2 & _).
  split; [unfold fdiv; rewrite C2; exact Fx |]. unfold fdiv. rewrite C1.
  replace (rnd32 (a / s) - r / s) with ((rnd32 (a / s) - a / s) + (a - r) / s) by (field; lra).
  apply Rle_trans with (1 := Rabs_triang _ _).
  assert (T : Rabs ((a - r) / s) <= d / s) by (unfold Rdiv; rewrite Rabs_mult, (Rabs_pos_eq (/ s)) by lra; apply Rmult_le_compat_r; lra).
  assert (u * Rabs (a / s) <= u * ((A + d) / s)) by (apply Rmult_le_compat_l; [unfold u; lra | exact P]). lra.
Qed.
Lemma self x : is_finite x = true -> close x (R32 x) 0.
Proof. intros F. split; [exact F |]. rewrite Rminus_diag_eq, Rabs_R0 by reflexivity. lra. Qed.
(** A power of [c] with an inexact exponent. *)
Lemma pow_close E (c y : f32) r d K : pow_accurate E -> is_finite c = true -> 1 < R32 c -> close y r d -> d * ln (R32 c) <= K -> K <= / 1000 ->
  bpow radix2 (-119) <= Rpower (R32 c) r <= bpow radix2 119 ->
  is_finite (e_pow E c y) = true /\ Rabs (R32 (e_pow E c y) - Rpower (R32 c) r) <= (2 * K + / 900000) * Rpower (R32 c) r.
Proof.
  intros HE Fc Hc [Fy Hy] HK K1 B. assert (L : 0 <= ln (R32 c)) by (rewrite <- ln_1; left; apply ln_increasing; lra).
  pose proof (Rpower_near (R32 c) (R32 y) r d L Hy ltac:(lra)) as N. set (p := Rpower (R32 c) r) in *. set (q := Rpower (R32 c) (R32 y)) in *.
  assert (P0 : 0 < p) by apply exp_pos. assert (D0 : 0 <= d * ln (R32 c)). { apply Rmult_le_pos; [| exact L]. apply Rle_trans with (2 := Hy). apply Rabs_pos. }
  assert (N' : Rabs (q - p) <= 2 * K * p). { apply Rle_trans with (1 := N). apply Rmult_le_compat_r; lra. }
  apply Rabs_le_inv in N'. 
  assert (B1 : bpow radix2 (-119) = 2 * bpow radix2 (-120)) by (change (-119)%Z with (1 + -120)%Z; rewrite bpow_plus; reflexivity).
  assert (B2 : bpow radix2 120 = 2 * bpow radix2 119) by (change 120%Z with (1 + 119)%Z; rewrite bpow_plus; reflexivity).
  destruct (HE c y Fc Fy) as [F A]; [unfold val; lra | unfold val; fold q | unfold val in A; fold q in A].
  - split.
    + assert (p * (1 - 2 * / 1000) <= q) by nra. nra.
    + assert (q <= p * (1 + 2 * / 1000)) by nra. nra.
  - split; [exact F |]. apply Rabs_le_inv in A. apply Rabs_le.
    assert (q <= p * (1 + 2 * / 1000)) by nra. split; nra.
Qed.
Lemma pow32_base E c y : (0 < c < 1000)%Z -> pow32 E (of_int c) y = e_pow E (of_int c) y.
Proof.
  intros H. unfold pow32. destruct (of_int_exact c) as [R F]; [change (2 ^ 24)%Z with 16777216%Z; lia |].
  unfold fltb. rewrite Bltb_correct by (try exact F; reflexivity). rewrite R. change (R32 fzero) with (IZR 0). rewrite Rlt_bool_true by (apply IZR_lt; lia). reflexivity.
Qed.
Lemma quot32_base x c : (0 < c < 1000)%Z -> quot32 x (of_int c) = fdiv x (of_int c).
Proof.
  intros H. unfold quot32. destruct (of_int_exact c) as [R F]; [change (2 ^ 24)%Z with 16777216%Z; lia |].
  unfold feqb. rewrite Beqb_correct by (try exact F; reflexivity). rewrite R. change (R32 fzero) with (IZR 0). rewrite Req_bool_false; [reflexivity |].
  intros Q. apply eq_IZR in Q. lia.
Qed.
Lemma int_R z : (Z.abs z <= 1000)%Z -> R32 (of_int z) = IZR z /\ is_finite (of_int z) = true.
Proof. intros H. apply of_int_exact. change (2 ^ 24)%Z with 16777216%Z. lia. Qed.
Lemma Rpower_mono c a b : 1 < c -> a <= b -> Rpower c a <= Rpower c b.
Proof. intros H L. destruct L as [L | ->]; [left; apply Rpower_lt; assumption | lra]. Qed.
Lemma Rpower2 z : Rpower 2 (IZR z) = bpow radix2 z.
Proof. rewrite bpow_powerRZ. change (IZR radix2) with 2. rewrite powerRZ_Rpower by lra. reflexivity. Qed.

Lemma mtof_accurate E x : pow_accurate E -> is_finite x = true -> Rabs (R32 x) <= 1000 ->
  is_finite (mtof_value E x) = true /\ Rabs (R32 (mtof_value E x) - 440 * Rpower 2 ((R32 x - 69) / 12)) <= / 50000 * (440 * Rpower 2 ((R32 x - 69) / 12)).
Proof.
  intros HE Fx Hx. unfold mtof_value. rewrite pow32_base, quot32_base by lia. pose proof (Rabs_le_inv _ _ Hx) as Hx'.
  destruct (int_R 2 ltac:(lia)) as [R2 F2]. destruct (int_R 12 ltac:(lia)) as [R12 F12]. destruct (int_R 440 ltac:(lia)) as [R440 F440].
  assert (N1 : close (fsub x (of_int 69)) (R32 x - 69) (0.000064)).
  { eapply near_sub with (A := 1069); [apply self, Fx | apply int_near; lia | apply Rabs_le; lra | lra | unfold u; lra]. }
  assert (N2 : close (fdiv (fsub x (of_int 69)) (of_int 12)) ((R32 x - 69) / 12) 0.000011).
  { eapply near_div with (A := 1069) (s := 12); [exact N1 | exact F12 | exact R12 | lra | apply Rabs_le; lra | lra | unfold u; lra]. }
  set (y := fdiv (fsub x (of_int 69)) (of_int 12)) in *. set (r := (R32 x - 69) / 12) in *.
  assert (Hr : -90 <= r <= 78) by (unfold r; lra). pose proof ln2_bound as L2.
  assert (B : bpow radix2 (-90) <= Rpower 2 r <= bpow radix2 78) by (rewrite <- !Rpower2; split; apply Rpower_mono; lra).
  destruct (pow_close E (of_int 2) y r 0.000011 0.0000077 HE F2) as [FP HP]; rewrite ?R2; try lra; [exact N2 | |].
  { split; [apply Rle_trans with (2 := proj1 B); apply bpow_le; lia | apply Rle_trans with (1 := proj2 B); apply bpow_le; lia]. }
  rewrite R2 in HP. set (p := e_pow E (of_int 2) y) in *. set (P := Rpower 2 r) in *.
  apply Rabs_le_inv in HP. assert (P0 : 0 < P) by apply exp_pos.
  pose proof (Bmult_correct 24 128 _ _ mode_NE p (of_int 440)) as C. rewrite R440 in C.
  assert (B1 : bpow radix2 (-100) <= R32 p * 440).
  { apply Rle_trans with (bpow radix2 (-90)); [apply bpow_le; lia |]. nra. }
  assert (B2 : R32 p * 440 <= bpow radix2 90).
  { apply Rle_trans with (bpow radix2 78 * 881); [nra |]. change 90%Z with (78 + 12)%Z. rewrite bpow_plus. apply Rmult_le_compat_l; [apply bpow_ge_0 |]. cbn. lra. }
  pose proof (round32_near (R32 p * 440) B1) as RN. unfold Float64Facts.near in RN.
  set (w := round radix2 fexp32 (round_mode mode_NE) (R32 p * 440)) in *. replace (bpow radix2 (-24)) with (/ 16777216) in RN by reflexivity.
  rewrite Rlt_bool_true in C.
  - destruct C as (C1 & C2 & _). fold (fmul p (of_int 440)) in C1, C2. rewrite FP, F440 in C2. split; [exact C2 |]. rewrite C1. apply Rabs_le. split; nra.
  - pose proof (bpow_gt_0 radix2 (-100)). rewrite Rabs_pos_eq by nra. apply Rle_lt_trans with (2 * bpow radix2 90); [nra |].
    change (2 * bpow radix2 90) with (bpow radix2 1 * bpow radix2 90). rewrite <- bpow_plus. apply bpow_lt. lia.
Qed.
Lemma positive x : is_finite x = true -> fltb fzero x = true -> 0 < R32 x.
Proof.
  intros F H. unfold fltb in H. rewrite Bltb_correct in H by (try exact F; reflexivity). change (R32 fzero) with 0 in H.
  revert H. case Rlt_bool_spec; [auto | discriminate].
Qed.
Lemma positive' x : is_finite x = true -> 0 < R32 x -> fltb fzero x = true.
Proof. intros F H. unfold fltb. rewrite Bltb_correct by (try exact F; reflexivity). apply Rlt_bool_true. exact H. Qed.
Lemma min_small x c : is_finite x = true -> (Z.abs c <= 1000)%Z -> R32 x <= IZR c -> fmin x (of_int c) = x.
Proof.
  intros F Hc H. destruct (int_R c Hc) as [R G]. unfold fmin. replace (is_nan x) with false by (destruct x; try discriminate F; reflexivity).
  replace (is_nan (of_int c)) with false by (destruct (of_int c); try discriminate G; reflexivity).
  unfold fltb. rewrite Bltb_correct by assumption. rewrite R, Rlt_bool_false by exact H. reflexivity.
Qed.
Lemma min_large x c : is_nan x = false -> (Z.abs c <= 1000)%Z -> fltb (of_int c) x = true -> fmin x (of_int c) = of_int c.
Proof.
  intros F Hc H. destruct (int_R c Hc) as [R G]. unfold fmin. rewrite F.
  replace (is_nan (of_int c)) with false by (destruct (of_int c); try discriminate G; reflexivity). rewrite H. reflexivity.
Qed.
(** Decibels to numbers. *)
Lemma dbto_accurate E limit per x : pow_accurate E -> (limit = 485 /\ per = 20 \/ limit = 870 /\ per = 10)%Z -> is_finite x = true -> 0 < R32 x ->
  R32 x <= (if (per =? 10)%Z then 450 else 485) ->
  let y := Rpower 10 ((R32 x - 100) / IZR per) in
  is_finite (dbto_value E limit per x) = true /\ Rabs (R32 (dbto_value E limit per x) - y) <= / 40000 * y.
Proof.
  intros HE Hp Fx H0 H1. cbv zeta. unfold dbto_value. rewrite positive', pow32_base by (auto; lia). rewrite quot32_base by (destruct Hp as [[_ ->] | [_ ->]]; lia).
  rewrite min_small by (auto; destruct Hp as [[-> ->] | [-> ->]]; cbn in *; lia || lra).
  destruct (int_R 10 ltac:(lia)) as [R10 F10]. destruct (int_R per) as [Rp Fp]; [destruct Hp as [[_ ->] | [_ ->]]; lia |].
  assert (N1 : close (fsub x (of_int 100)) (R32 x - 100) 0.000023).
  { eapply near_sub with (A := 385); [apply self, Fx | apply int_near; lia | apply Rabs_le; destruct (per =? 10)%Z; lra | lra | unfold u; lra]. }
  assert (N2 : close (fdiv (fsub x (of_int 100)) (of_int per)) ((R32 x - 100) / IZR per) 0.0000045).
  { destruct Hp as [[-> ->] | [-> ->]]; cbn [Z.eqb Pos.eqb] in H1.
    - eapply near_div with (A := 385); [exact N1 | exact Fp | exact Rp | lra | apply Rabs_le; lra | lra | unfold u; lra].
    - eapply near_div with (A := 350); [exact N1 | exact Fp | exact Rp | lra | apply Rabs_le; lra | lra | unfold u; lra]. }
  set (y := fdiv (fsub x (of_int 100)) (of_int per)) in *. set (r := (R32 x - 100) / IZR per) in *.
  assert (Hr : -10 <= r <= 35). { unfold r. destruct Hp as [[-> ->] | [-> ->]]; cbn [Z.eqb Pos.eqb] in H1; lra. }
  pose proof ln10_bound as L.
  assert (B : bpow radix2 (-119) <= Rpower 10 r <= bpow radix2 119).
  { assert (G : forall n, Rpower 10 (INR n) = 10 ^ n) by (intro n; apply Rpower_pow; lra).
    split.
    - apply Rle_trans with (Rpower 10 (-10)); [| apply Rpower_mono; lra].
      replace (-10) with (- INR 10) by (cbn; lra). rewrite Rpower_Ropp, G.
      apply Rle_trans with (bpow radix2 (-40)); [apply bpow_le; lia |]. change (bpow radix2 (-40)) with (/ 1099511627776). apply Rinv_le_contravar; cbn; lra.
    - apply Rle_trans with (Rpower 10 35); [apply Rpower_mono; lra |]. replace 35 with (INR 35) by (cbn; lra). rewrite G. cbn. lra. }
  destruct (pow_close E (of_int 10) y r 0.0000045 0.0000104 HE F10) as [FP HP]; rewrite ?R10; try lra; [exact N2 |].
  rewrite R10 in HP. split; [exact FP |]. apply Rle_trans with (1 := HP). apply Rmult_le_compat_r; [left; apply exp_pos | lra].
Qed.
Lemma shift_near x r r' d e D : close x r d -> Rabs (r - r') <= e -> d + e <= D -> close x r' D.
Proof. intros [F H] E L. split; [exact F |]. replace (R32 x - r') with ((R32 x - r) + (r - r')) by ring. apply Rle_trans with (1 := Rabs_triang _ _). lra. Qed.
Lemma fabs_big x : Rabs (R32 x) < bpow radix2 128. Proof. apply abs_B2R_lt_emax. Qed.
(** The logarithm of a finite number. *)
Lemma ln_range x : is_finite x = true -> 0 < R32 x -> -104 <= ln (R32 x) <= 89.
Proof.
  intros F H. pose proof ln2_bound as L. assert (Q : forall n, ln (bpow radix2 n) = IZR n * ln 2).
  { intro n. rewrite <- Rpower2. unfold Rpower. apply ln_exp. }
  split.
  - apply Rle_trans with (ln (bpow radix2 (-149))); [rewrite Q; lra |].
    assert (M : bpow radix2 (-149) <= R32 x).
    { pose proof (abs_B2R_ge_emin 24 128 x) as G. unfold SpecFloat.emin in G. rewrite Rabs_pos_eq in G by lra. apply G.
      destruct x as [s | s | | s m e Hb]; try discriminate F; [cbn in H; lra | reflexivity]. }
    destruct (Rle_lt_or_eq_dec _ _ M) as [D | D]; [left; apply ln_increasing; [apply bpow_gt_0 | exact D] | rewrite D; lra].
  - apply Rle_trans with (ln (bpow radix2 128)); [| rewrite Q; lra]. left. apply ln_increasing; [exact H |]. pose proof (fabs_big x) as G. rewrite Rabs_pos_eq in G by lra. exact G.
Qed.
Lemma log2e_near : close log2e 1.44269504 0.0000001.
Proof. unfold log2e. destruct (dyadic_exact 12102203 (-23)) as [A B]; [lia | lia |]. split; [exact B |]. rewrite A. replace (bpow radix2 (-23)) with (/ 8388608) by reflexivity. apply Rabs_le. lra. Qed.
Lemma log10e_near : close log10e 0.43429448 0.00000002.
Proof. unfold log10e. destruct (dyadic_exact 14572505 (-25)) as [A B]; [lia | lia |]. split; [exact B |]. rewrite A. replace (bpow radix2 (-25)) with (/ 33554432) by reflexivity. apply Rabs_le. lra. Qed.
Lemma inv_ln2 : Rabs (1.44269504 - / ln 2) <= 0.00000006.
Proof.
  pose proof ln2_bound. assert (A : / 0.69314719 <= / ln 2 <= / 0.69314717) by (split; apply Rinv_le_contravar; lra).
  apply Rabs_le. assert (B : 1.442694999 <= / 0.69314719) by (apply Rmult_le_reg_r with 0.69314719; [lra | rewrite Rinv_l by lra; lra]).
  assert (C : / 0.69314717 <= 1.442695099) by (apply Rmult_le_reg_r with 0.69314717; [lra | rewrite Rinv_l by lra; lra]). lra.
Qed.
Lemma inv_ln10 : Rabs (0.43429448 - / ln 10) <= 0.00000002.
Proof.
  pose proof ln10_bound. assert (A : / 2.30258514 <= / ln 10 <= / 2.30258505) by (split; apply Rinv_le_contravar; lra).
  apply Rabs_le. assert (B : 0.43429446 <= / 2.30258514) by (apply Rmult_le_reg_r with 2.30258514; [lra | rewrite Rinv_l by lra; lra]).
  assert (C : / 2.30258505 <= 0.4342945) by (apply Rmult_le_reg_r with 2.30258505; [lra | rewrite Rinv_l by lra; lra]). lra.
Qed.
Lemma max_zero x r d : close x r d -> close (fmax x fzero) (Rmax r 0) d.
Proof. apply near_max. exact fmax_ok. Qed.
(** Numbers to decibels. *)
Lemma todb_accurate E per x : log_accurate E -> (per = 20 \/ per = 10)%Z -> is_finite x = true -> 0 < R32 x ->
  close (todb_value E per x) (Rmax (100 + IZR per * (ln (R32 x) / ln 10)) 0) (/ 500).
Proof.
  intros HE Hp Fx H0. unfold todb_value. rewrite positive' by assumption. apply max_zero. cbn [unop_value]. rewrite positive' by assumption.
  destruct (HE x Fx H0) as [FL HL]. unfold val in HL. pose proof (ln_range x Fx H0) as B. set (l := ln (R32 x)) in *.
  assert (A : Rabs l <= 104) by (apply Rabs_le; lra).
  assert (N0 : close (e_lib E LOG x) l 0.000106) by (split; [exact FL | lra]).
  assert (N1 : close (fmul log10e (e_lib E LOG x)) (0.43429448 * l) 0.000055).
  { eapply near_mul with (A := 0.4343) (B := 104); [exact log10e_near | exact N0 | rewrite Rabs_pos_eq; lra | exact A | lra | unfold u; lra]. }
  assert (A2 : Rabs (0.43429448 * l) <= 45.2) by (apply Rabs_le; lra).
  assert (N2 : close (fmul (fmul log10e (e_lib E LOG x)) (of_int per)) (0.43429448 * l * IZR per) 0.0012).
  { eapply near_mul with (A := 45.2) (B := 20); [exact N1 | apply int_near; destruct Hp as [-> | ->]; lia | exact A2 | destruct Hp as [-> | ->]; rewrite Rabs_pos_eq; lra | lra | unfold u; lra]. }
  assert (N3 : close (fadd (fmul (fmul log10e (e_lib E LOG x)) (of_int per)) (of_int 100)) (0.43429448 * l * IZR per + IZR 100) 0.0013).
  { eapply near_add with (A := 1004); [exact N2 | apply int_near; lia | apply Rabs_le; apply Rabs_le_inv in A2; destruct Hp as [-> | ->]; lra | lra | unfold u; lra]. }
  eapply shift_near with (e := 0.0005); [exact N3 | | lra].
  pose proof inv_ln10 as V. unfold Rdiv. set (k := / ln 10) in *. apply Rabs_le_inv in V. 
  assert (Q : Rabs (l * (0.43429448 - k)) <= 104 * 0.00000002) by (rewrite Rabs_mult; apply Rmult_le_compat; try apply Rabs_pos; [exact A | apply Rabs_le; lra]).
  apply Rabs_le_inv in Q. apply Rabs_le. destruct Hp as [-> | ->]; lra.
Qed.
(** Frequencies to pitches. *)
Lemma ftom_accurate E x : log_accurate E -> is_finite x = true -> bpow radix2 (-90) <= R32 x ->
  close (ftom_value E x) (69 + 12 * (ln (R32 x / 440) / ln 2)) (/ 400).
Proof.
  intros HE Fx H0. assert (P : 0 < R32 x) by (pose proof (bpow_gt_0 radix2 (-90)); lra). unfold ftom_value. rewrite positive' by assumption. rewrite quot32_base by lia.
  destruct (int_R 440 ltac:(lia)) as [R440 F440].
  pose proof (Bdiv_correct 24 128 _ _ mode_NE x (of_int 440)) as C. rewrite R440 in C. specialize (C ltac:(lra)).
  assert (B1 : bpow radix2 (-100) <= R32 x / 440).
  { apply Rle_trans with (bpow radix2 (-90) / 440); [| unfold Rdiv; apply Rmult_le_compat_r; lra].
    change (-100)%Z with (-90 + -10)%Z. rewrite bpow_plus. unfold Rdiv. apply Rmult_le_compat_l; [apply bpow_ge_0 |]. change (bpow radix2 (-10)) with (/ 1024). lra. }
  pose proof (round32_near (R32 x / 440) B1) as RN. unfold Float64Facts.near in RN.
  set (w := round radix2 fexp32 (round_mode mode_NE) (R32 x / 440)) in *. replace (bpow radix2 (-24)) with (/ 16777216) in RN by reflexivity.
  pose proof (fabs_big x) as U. rewrite Rabs_pos_eq in U by lra. pose proof (bpow_gt_0 radix2 (-100)) as P1.
  rewrite Rlt_bool_true in C by (rewrite Rabs_pos_eq by nra; nra).
  destruct C as (C1 & C2 & _). fold (fdiv x (of_int 440)) in C1, C2. rewrite Fx in C2. set (q := fdiv x (of_int 440)) in *.
  assert (Pq : 0 < R32 q) by (rewrite C1; nra). cbn [unop_value]. rewrite positive' by assumption.
  destruct (HE q C2 Pq) as [FL HL]. unfold val in HL. pose proof (ln_range q C2 Pq) as B.
  pose proof (ln_near (R32 q) (R32 x / 440) (/ 16777216) ltac:(lra) ltac:(lra) ltac:(rewrite C1; exact RN)) as D.
  set (l := ln (R32 x / 440)) in *. set (m := ln (R32 q)) in *. apply Rabs_le_inv in D.
  assert (Bm : -76 <= m).
  { assert (ln (bpow radix2 (-100)) <= l). { destruct B1 as [B1 | B1]; [left; apply ln_increasing; [exact P1 | exact B1] | unfold l; rewrite B1; lra]. }
    assert (Q : ln (bpow radix2 (-100)) = -100 * ln 2) by (rewrite <- Rpower2; unfold Rpower; apply ln_exp). pose proof ln2_bound. lra. }
  assert (Am : Rabs m <= 89) by (apply Rabs_le; lra).
  assert (N0 : close (e_lib E LOG q) m 0.00009) by (split; [exact FL | lra]).
  assert (N1 : close (fmul log2e (e_lib E LOG q)) (1.44269504 * m) 0.00015).
  { eapply near_mul with (A := 1.4427) (B := 89); [exact log2e_near | exact N0 | rewrite Rabs_pos_eq; lra | exact Am | lra | unfold u; lra]. }
  assert (A2 : Rabs (1.44269504 * m) <= 129) by (apply Rabs_le; lra).
  assert (N2 : close (fmul (fmul log2e (e_lib E LOG q)) (of_int 12)) (1.44269504 * m * 12) 0.0019).
  { eapply near_mul with (A := 129) (B := 12); [exact N1 | apply int_near; lia | exact A2 | rewrite Rabs_pos_eq; lra | lra | unfold u; lra]. }
  assert (N3 : close (fadd (fmul (fmul log2e (e_lib E LOG q)) (of_int 12)) (of_int 69)) (1.44269504 * m * 12 + IZR 69) 0.0021).
  { eapply near_add with (A := 1700); [exact N2 | apply int_near; lia | apply Rabs_le; apply Rabs_le_inv in A2; lra | lra | unfold u; lra]. }
  eapply shift_near with (e := 0.0003); [exact N3 | | lra].
  pose proof inv_ln2 as V. unfold Rdiv. set (k := / ln 2) in *.
  assert (Q : Rabs (m * (1.44269504 - k)) <= 89 * 0.00000006) by (rewrite Rabs_mult; apply Rmult_le_compat; try apply Rabs_pos; [exact Am | exact V]).
  apply Rabs_le_inv in V. assert (K : 0 < k <= 1.5) by lra.
  assert (S1 : Rabs ((m - l) * k) <= 0.0000003). { rewrite Rabs_mult, (Rabs_pos_eq k) by lra. apply Rle_trans with (0.0000002 * 1.5); [| lra]. apply Rmult_le_compat; [apply Rabs_pos | lra | apply Rabs_le; lra | lra]. }
  apply Rabs_le_inv in Q. apply Rabs_le_inv in S1. apply Rabs_le. lra.
Qed.
(** wrap *)
Lemma wrap_accurate x : is_finite x = true -> (0 <= R32 (wrap_value x) <= 1) /\ close (wrap_value x) (R32 x - IZR (Zfloor (R32 x))) (/ 33554432).
Proof.
  intro Fx. unfold wrap_value. destruct (floor_R x) as [A B]. rewrite Fx in B. unfold fsub.
  pose proof (Bminus_correct 24 128 _ _ mode_NE x _ Fx B) as C. rewrite A in C. change (round_mode mode_NE) with ZnearestE in C.
  pose proof (Zfloor_lb (R32 x)) as L. pose proof (Zfloor_ub (R32 x)) as U.
  set (r := R32 x - IZR (Zfloor (R32 x))) in *.
  assert (R : 0 <= r <= 1) by (unfold r; lra).
  assert (R' : 0 <= rnd32 r <= 1).
  { split; [apply round_ge_generic | apply round_le_generic]; try apply valid_rnd_N; try apply fexp_correct; try reflexivity; try apply generic_format_0; try apply R.
    replace 1 with (IZR 1 * bpow radix2 0) by (cbn; lra). apply fmt32; cbn; lia. }
  rewrite Rlt_bool_true in C.
  - destruct C as (C1 & C2 & _). split; [rewrite C1; exact R' | split; [exact C2 | rewrite C1; apply rnd_near1; rewrite Rabs_pos_eq; lra]].
  - rewrite Rabs_pos_eq by apply R'. apply Rle_lt_trans with (bpow radix2 0); [cbn; lra | apply bpow_lt; lia].
Qed.
(** Outside. *)
Lemma not_positive x : is_finite x = true -> R32 x <= 0 -> fltb fzero x = false.
Proof. intros F H. unfold fltb. rewrite Bltb_correct by (try exact F; reflexivity). apply Rlt_bool_false. exact H. Qed.
Lemma int_R5 : R32 (of_int (-1500)) = -1500.
Proof. apply of_int_exact. change (2 ^ 24)%Z with 16777216%Z. lia. Qed.
Lemma int_R0 : R32 (of_int 0) = 0.
Proof. apply of_int_exact. change (2 ^ 24)%Z with 16777216%Z. lia. Qed.
Lemma dbto_zero E limit per x : is_finite x = true -> R32 x <= 0 -> R32 (dbto_value E limit per x) = 0.
Proof. intros F H. unfold dbto_value. rewrite not_positive by assumption. exact int_R0. Qed.
Lemma todb_zero E per x : is_finite x = true -> R32 x <= 0 -> R32 (todb_value E per x) = 0.
Proof. intros F H. unfold todb_value. rewrite not_positive by assumption. exact int_R0. Qed.
Lemma dbto_limit E limit per x : (0 < limit <= 1000)%Z -> is_finite x = true -> IZR limit < R32 x -> dbto_value E limit per x = dbto_value E limit per (of_int limit).
Proof.
  intros Hl F H. destruct (int_R limit) as [L G]; [lia |]. assert (0 < IZR limit) by (apply IZR_lt; lia).
  unfold dbto_value. rewrite !positive' by (auto; rewrite ?L; lra). rewrite (min_small (of_int limit)) by (auto; lia || lra).
  rewrite min_large; [reflexivity | destruct x; try discriminate F; reflexivity | lia |].
  unfold fltb. rewrite Bltb_correct by assumption. apply Rlt_bool_true. lra.
Qed.
