(** The coefficients of the filters as real numbers. *)
From Verif Require Import FilterSpec Float32Facts RecorderProofs SndProofs5 SndProofs6 SndProofs7 NoiseProofs2.
From Coq Require Import Reals Lra Lia.
From Flocq Require Import Core.
Open Scope R_scope.

Lemma one_R : R32 fone = 1 /\ is_finite fone = true.
Proof. destruct (of_int_exact 1 ltac:(lia)) as [A B]. split; [exact A | exact B]. Qed.
Lemma fltb_R x y : is_finite x = true -> is_finite y = true -> fltb x y = Rlt_bool (R32 x) (R32 y).
Proof. intros Fx Fy. unfold fltb. apply Bltb_correct; assumption. Qed.
Lemma finite_not_nan (x : f32) : is_finite x = true -> is_nan x = false.
Proof. destruct x; cbn; congruence. Qed.
Lemma fmin_R x y : is_finite x = true -> is_finite y = true -> is_finite (fmin x y) = true /\ R32 (fmin x y) = Rmin (R32 x) (R32 y).
Proof.
  intros Fx Fy. unfold fmin. rewrite (finite_not_nan x Fx), (finite_not_nan y Fy), fltb_R by assumption.
  destruct (Rlt_bool_spec (R32 y) (R32 x)); split; try assumption; unfold Rmin; destruct (Rle_dec (R32 x) (R32 y)); lra.
Qed.
Lemma fmax_R x y : is_finite x = true -> is_finite y = true -> is_finite (fmax x y) = true /\ R32 (fmax x y) = Rmax (R32 x) (R32 y).
Proof.
  intros Fx Fy. unfold fmax. rewrite (finite_not_nan x Fx), (finite_not_nan y Fy), fltb_R by assumption.
  destruct (Rlt_bool_spec (R32 x) (R32 y)); split; try assumption; unfold Rmax; destruct (Rle_dec (R32 x) (R32 y)); lra.
Qed.
Lemma clip_R x : is_finite x = true -> is_finite (unit_clip x) = true /\ R32 (unit_clip x) = Rmax (Rmin (R32 x) 1) 0.
Proof.
  intros F. destruct one_R as [O1 O2]. destruct (fmin_R x fone F O2) as [A B]. destruct (fmax_R (fmin x fone) fzero A eq_refl) as [C D].
  split; [exact C |]. unfold unit_clip. rewrite D, B, O1. reflexivity.
Qed.
(** Whatever comes in. *)
Lemma clip_range x : is_finite (unit_clip x) = true /\ 0 <= R32 (unit_clip x) <= 1.
Proof.
  destruct (is_finite x) eqn:F.
  - destruct (clip_R x F) as [A ->]. split; [exact A |]. unfold Rmax, Rmin. destruct (Rle_dec (R32 x) 1); [destruct (Rle_dec (R32 x) 0) | destruct (Rle_dec 1 0)]; lra.
  - destruct one_R as [O1 O2].
    assert (H : unit_clip x = fone \/ unit_clip x = fzero) by (destruct x as [| s | |]; try discriminate F; [destruct s; [right | left] | left]; reflexivity).
    destruct H as [-> | ->]; [rewrite O1; split; [exact O2 | lra] |]. cbn. split; [reflexivity | lra].
Qed.
Lemma two_pi_R : is_finite two_pi = true /\ Rabs (R32 two_pi - 2 * PI) <= / 150000.
Proof.
  destruct c_2pi as [F B]. split; [exact F |]. pose proof pi_bounds. apply Rabs_le_inv in B. unfold two_pi. apply Rabs_le. lra.
Qed.
Lemma quot_R a b : is_finite a = true -> is_finite b = true -> R32 b <> 0 -> Rabs (R32 a / R32 b) <= bpow radix2 60 ->
  is_finite (quot a b) = true /\ R32 (quot a b) = rnd32 (R32 a / R32 b).
Proof.
  intros Fa Fb Nb B. unfold quot, feqb. rewrite Beqb_correct by (exact Fb || reflexivity). rewrite Req_bool_false by exact Nb. cbn [negb].
  destruct (fdiv_R' a b 60 Fa Nb B ltac:(lia)) as [E F]. split; assumption.
Qed.
Lemma rel r : Rabs (rnd32 r - r) <= / 16777216 * Rabs r + / 1000000000000.
Proof.
  assert (A : Rabs (rnd32 r - r) <= / 16777216 * Rabs r + bpow radix2 (-150)) by exact (rnd_rel r). destruct tiny as [_ Ht]. lra.
Qed.
Lemma clip_close p t : Rabs (p - t) <= / 400000 * (1 + Rabs t) -> Rabs (Rmax (Rmin p 1) 0 - Rmax (Rmin t 1) 0) <= / 100000.
Proof.
  intros H. apply Rabs_le_inv in H. unfold Rabs in H. apply Rabs_le. destruct (Rcase_abs t);
  unfold Rmax, Rmin; destruct (Rle_dec p 1), (Rle_dec t 1); repeat match goal with |- context [Rle_dec ?a ?b] => destruct (Rle_dec a b) end; lra.
Qed.
(** ** lop~ *)
Lemma lop_close sr fc : usual sr -> is_finite fc = true -> Rabs (R32 fc) <= 1000000 ->
  Rabs (R32 (lop_coef sr fc) - Rmax (Rmin (2 * PI * R32 fc / R32 sr) 1) 0) <= / 100000.
Proof.
  intros [Fs Hs] Ff Hf. unfold val in Hs. destruct two_pi_R as [Fp Hp]. pose proof pi_bounds as Hpi. set (a := R32 two_pi) in *. set (s := R32 sr) in *. set (x := R32 fc) in *.
  apply Rabs_le_inv in Hp.
  assert (Is : / 200000 <= / s <= / 1000) by (split; apply Rinv_le; lra).
  assert (Qb : 0.00003 <= a / s <= 0.0063) by (unfold Rdiv; split; nra).
  assert (B60 : 1000000000000000 <= bpow radix2 60) by (change (bpow radix2 60) with (IZR (2 ^ 60)); apply IZR_le; lia).
  destruct (quot_R two_pi sr Fp Fs) as [Fq Eq]; [fold s; lra | fold a s; rewrite Rabs_pos_eq by lra; lra |]. fold a s in Eq.
  pose proof (rel (a / s)) as Rq. rewrite <- Eq in Rq. rewrite (Rabs_pos_eq (a / s)) in Rq by lra. set (q := R32 (quot two_pi sr)) in *.
  apply Rabs_le_inv in Rq.
  assert (Mb : Rabs (x * q) <= 10000). { rewrite Rabs_mult. rewrite (Rabs_pos_eq q) by lra. nra. }
  destruct (fmul_R fc (quot two_pi sr) 60 Ff Fq) as [Em Fm]; [fold x q; lra | lia |]. fold x q in Em.
  destruct (clip_R _ Fm) as [_ Ec]. unfold lop_coef. rewrite Ec. apply clip_close. rewrite Em.
  pose proof (rel (x * q)) as Rm.
  replace (rnd32 (x * q) - 2 * PI * x / s) with (rnd32 (x * q) - x * q + x * (q - 2 * PI * / s)) by (unfold Rdiv; ring).
  assert (D : Rabs (q - 2 * PI * / s) <= / 800000 * (2 * PI * / s)).
  { apply Rabs_le. unfold Rdiv in *. assert (Rabs ((a - 2 * PI) * / s) <= / 150000 * / s).
    { rewrite Rabs_mult, (Rabs_pos_eq (/ s)) by lra. apply Rmult_le_compat_r; [lra |]. apply Rabs_le. lra. }
    apply Rabs_le_inv in H. replace ((a - 2 * PI) * / s) with (a * / s - 2 * PI * / s) in H by ring.
    assert (3.14 * / s <= PI * / s <= 3.15 * / s) by (split; apply Rmult_le_compat_r; lra). lra. }
  eapply Rle_trans; [apply Rabs_triang |].
  assert (T0 : Rabs (2 * PI * x / s) = Rabs x * (2 * PI * / s)).
  { unfold Rdiv. replace (2 * PI * x * / s) with (x * (2 * PI * / s)) by ring. rewrite Rabs_mult. f_equal. apply Rabs_pos_eq. nra. }
  assert (D2 : Rabs (x * (q - 2 * PI * / s)) <= / 800000 * Rabs (2 * PI * x / s)).
  { rewrite T0, Rabs_mult. pose proof (Rabs_pos x). nra. }
  assert (D3 : Rabs (x * q) <= Rabs (2 * PI * x / s) * (1 + / 800000)).
  { replace (x * q) with (2 * PI * x / s + x * (q - 2 * PI * / s)) by (unfold Rdiv; ring). eapply Rle_trans; [apply Rabs_triang |]. lra. }
  pose proof (Rabs_pos (2 * PI * x / s)). lra.
Qed.
(** ** hip~ *)
Lemma hip_close sr fc : usual sr -> is_finite fc = true -> Rabs (R32 fc) <= 1000000 ->
  is_finite (hip_coef sr fc) = true /\ 0 <= R32 (hip_coef sr fc) <= 1 - 3 / 100000 /\
  Rabs (R32 (hip_coef sr fc) - Rmax (1 - 2 * PI * Rmax (R32 fc) 1 / R32 sr) 0) <= / 100000.
Proof.
  intros [Fs Hs] Ff Hf. unfold val in Hs. destruct two_pi_R as [Fp Hp]. destruct one_R as [O1 O2]. pose proof pi_bounds as Hpi.
  destruct (fmax_R fc fone Ff O2) as [Fm Em]. rewrite O1 in Em. set (a := R32 two_pi) in *. set (s := R32 sr) in *.
  apply Rabs_le_inv in Hp. apply Rabs_le_inv in Hf.
  set (x := Rmax (R32 fc) 1) in *. assert (Hx : 1 <= x <= 1000000) by (unfold x, Rmax; destruct (Rle_dec (R32 fc) 1); lra).
  assert (Is : / 200000 <= / s <= / 1000) by (split; apply Rinv_le; lra).
  assert (B60 : 1000000000000000 <= bpow radix2 60) by (change (bpow radix2 60) with (IZR (2 ^ 60)); apply IZR_le; lia).
  assert (Xa : 6 <= x * a <= 7000000) by nra.
  destruct (fmul_R (fmax fc fone) two_pi 60 Fm Fp) as [E1 F1]; [rewrite Em; fold a; rewrite Rabs_pos_eq by lra; lra | lia |].
  rewrite Em in E1. fold a in E1. pose proof (rel (x * a)) as R1. rewrite <- E1 in R1. rewrite (Rabs_pos_eq (x * a)) in R1 by lra. apply Rabs_le_inv in R1.
  set (y := R32 (fmul (fmax fc fone) two_pi)) in *.
  assert (Ya : 5.9 <= y <= 7100000) by lra.
  assert (Ys : 0.000029 <= y * / s <= 7100) by (split; nra).
  destruct (quot_R (fmul (fmax fc fone) two_pi) sr F1 Fs) as [F2 E2]; [fold s; lra | fold y s; unfold Rdiv; rewrite Rabs_pos_eq by lra; lra |]. fold y s in E2.
  pose proof (rel (y / s)) as R2. rewrite <- E2 in R2. unfold Rdiv in R2. rewrite (Rabs_pos_eq (y * / s)) in R2 by lra. apply Rabs_le_inv in R2.
  set (z := R32 (quot (fmul (fmax fc fone) two_pi) sr)) in *.
  destruct (fsub_R (of_int 1) (quot (fmul (fmax fc fone) two_pi) sr) 60 O2 F2) as [E3 F3].
  { change (R32 (of_int 1)) with (R32 fone). rewrite O1. fold z. apply Rabs_le. lra. } { lia. }
  change (R32 (of_int 1)) with (R32 fone) in E3. rewrite O1 in E3. fold z in E3. pose proof (rel (1 - z)) as R3. rewrite <- E3 in R3.
  assert (A3 : Rabs (1 - z) <= 1 + z) by (apply Rabs_le; lra). apply Rabs_le_inv in R3.
  assert (T0 : Rabs (z - 2 * PI * x / s) <= / 700000 * (2 * PI * x / s)).
  { unfold Rdiv. assert (Q : Rabs (y * / s - 2 * PI * x * / s) <= / 850000 * (2 * PI * x * / s)).
    { replace (y * / s - 2 * PI * x * / s) with ((y - 2 * PI * x) * / s) by ring. rewrite Rabs_mult, (Rabs_pos_eq (/ s)) by lra. rewrite <- Rmult_assoc.
      apply Rmult_le_compat_r; [lra |]. assert (Rabs ((a - 2 * PI) * x) <= / 150000 * x).
      { rewrite Rabs_mult, (Rabs_pos_eq x) by lra. apply Rmult_le_compat_r; [lra |]. apply Rabs_le. lra. }
      apply Rabs_le_inv in H. replace ((a - 2 * PI) * x) with (x * a - 2 * PI * x) in H by ring. assert (3.141592 * x <= PI * x <= 3.141593 * x) by nra. apply Rabs_le. lra. }
    apply Rabs_le_inv in Q. apply Rabs_le. assert (0.00003 <= 2 * PI * x * / s) by nra. lra. }
  apply Rabs_le_inv in T0. unfold Rdiv in *. assert (T1 : 0.0000314 <= 2 * PI * x * / s) by nra.
  destruct (clip_R _ F3) as [F4 E4]. unfold hip_coef. split; [exact F4 |]. rewrite E4. clear E4 E3 E2 E1. set (v := R32 (fsub (of_int 1) _)) in *. clearbody v.
  set (t := 2 * PI * x * / s) in *. clearbody t z. split.
  - unfold Rmax, Rmin. destruct (Rle_dec v 1); repeat match goal with |- context [Rle_dec ?a ?b] => destruct (Rle_dec a b) end; lra.
  - apply Rabs_le. unfold Rmax, Rmin. destruct (Rle_dec v 1), (Rle_dec (1 - t) 0); repeat match goal with |- context [Rle_dec ?a ?b] => destruct (Rle_dec a b) end; lra.
Qed.
