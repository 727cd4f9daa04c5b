(** bp~ as real numbers. *)
From Verif Require PhasorProofs.
From Verif Require Import FilterSpec PatchSpec4 FilterProofs2 FilterProofs3 Float32Facts RecorderProofs SndProofs5 SndProofs6 SndProofs7 NoiseProofs2.
From Coq Require Import Reals Lra Lia.
From Flocq Require Import Core.
Open Scope R_scope.

Lemma neg_big k : is_finite k = true -> Rabs (R32 k) <= bpow radix2 60 -> is_finite (fmul k (of_int (-1))) = true /\ R32 (fmul k (of_int (-1))) = - R32 k.
Proof.
  intros F H. destruct (of_int_exact (-1) ltac:(lia)) as [O1 O2].
  destruct (fmul_R k (of_int (-1)) 60 F O2) as [E F']; [| lia |]; rewrite O1 in *.
  - replace (R32 k * -1) with (- R32 k) by ring. rewrite Rabs_Ropp. exact H.
  - split; [exact F' |]. rewrite E. replace (R32 k * -1) with (- R32 k) by ring.
    rewrite round_generic; [reflexivity | apply valid_rnd_N |]. apply generic_format_opp, generic_format_B2R.
Qed.
Lemma milli_R : is_finite (decimal 1 3) = true /\ 0.000999 <= R32 (decimal 1 3) <= 0.001001.
Proof.
  assert (N : near (decimal 1 3) 0.001 (/ 100000000)) by constant. destruct N as [A B]. split; [exact A |]. apply Rabs_le_inv in B. lra.
Qed.
Lemma omega_R sr fc : usual sr -> is_finite fc = true -> Rabs (R32 fc) <= 1000000 ->
  is_finite (bp_omega sr fc) = true /\ Rabs (R32 (bp_omega sr fc) - 2 * PI * R32 fc / R32 sr) <= / 500000 * Rabs (2 * PI * R32 fc / R32 sr) + / 100000000000 /\
  Rabs (R32 (bp_omega sr fc)) <= 6400 /\ (0 <= R32 fc -> 0 <= R32 (bp_omega sr fc)).
Proof.
  intros [Fs Hs] Ff Hf. unfold val in Hs. destruct two_pi_R as [Fp Hp]. pose proof pi_bounds as Hpi. pose proof B60 as HB.
  set (a := R32 two_pi) in *. set (s := R32 sr) in *. set (x := R32 fc) in *. apply Rabs_le_inv in Hp.
  assert (Is : / 200000 <= / s <= / 1000) by (split; apply Rinv_le; lra).
  assert (Xa : Rabs (x * a) <= 6290000). { rewrite Rabs_mult, (Rabs_pos_eq a) by lra. pose proof (Rabs_pos x). nra. }
  destruct (fmul_R fc two_pi 60 Ff Fp) as [E1 F1]; [fold x a; lra | lia |]. fold x a in E1.
  pose proof (rel (x * a)) as R1. rewrite <- E1 in R1. set (y := R32 (fmul fc two_pi)) in *.
  assert (Xe : Rabs (x * a) = Rabs x * a) by (rewrite Rabs_mult, (Rabs_pos_eq a) by lra; reflexivity).
  assert (Dp : Rabs (x * a - 2 * PI * x) <= / 150000 * Rabs x).
  { replace (x * a - 2 * PI * x) with (x * (a - 2 * PI)) by ring. rewrite Rabs_mult, Rmult_comm. apply Rmult_le_compat_r; [apply Rabs_pos |]. apply Rabs_le. lra. }
  pose proof (Rabs_pos x) as X0.
  assert (Dy : Rabs (y - 2 * PI * x) <= / 850000 * (2 * PI * Rabs x) + / 1000000000000).
  { replace (y - 2 * PI * x) with ((y - x * a) + (x * a - 2 * PI * x)) by ring. eapply Rle_trans; [apply Rabs_triang |].
    assert (3.141592 * Rabs x <= PI * Rabs x) by (apply Rmult_le_compat_r; lra). assert (Rabs x * a <= 6.3 * Rabs x) by nra. lra. }
  assert (Yb : Rabs y <= 6300000).
  { replace y with ((y - x * a) + x * a) by ring. eapply Rle_trans; [apply Rabs_triang |]. lra. }
  assert (Ys : Rabs (y * / s) <= 6300). { rewrite Rabs_mult, (Rabs_pos_eq (/ s)) by lra. pose proof (Rabs_pos y). nra. }
  destruct (quot_R (fmul fc two_pi) sr F1 Fs) as [F2 E2]; [fold s; lra | fold y s; unfold Rdiv; lra |]. fold y s in E2.
  pose proof (rel (y / s)) as R2. rewrite <- E2 in R2. unfold Rdiv in R2. unfold bp_omega. set (z := R32 (quot (fmul fc two_pi) sr)) in *.
  split; [exact F2 |].
  assert (Dz : Rabs (y * / s - 2 * PI * x * / s) <= / 850000 * (2 * PI * Rabs x * / s) + / 1000000000000).
  { replace (y * / s - 2 * PI * x * / s) with ((y - 2 * PI * x) * / s) by ring. rewrite Rabs_mult, (Rabs_pos_eq (/ s)) by lra.
    eapply Rle_trans; [apply Rmult_le_compat_r; [lra | exact Dy] |]. lra. }
  assert (Ta : Rabs (2 * PI * x / s) = 2 * PI * Rabs x * / s).
  { unfold Rdiv. rewrite !Rabs_mult, (Rabs_pos_eq (/ s)), (Rabs_pos_eq 2), (Rabs_pos_eq PI) by lra. reflexivity. }
  rewrite Ta. set (t := 2 * PI * Rabs x * / s) in *.
  assert (Yt : Rabs (y * / s) <= 1.00001 * t + / 1000000000000).
  { replace (y * / s) with ((y * / s - 2 * PI * x * / s) + 2 * PI * x / s) by (unfold Rdiv; ring). eapply Rle_trans; [apply Rabs_triang |]. rewrite Ta. fold t.
    assert (0 <= t) by (rewrite <- Ta; apply Rabs_pos). lra. }
  assert (T0 : 0 <= t) by (rewrite <- Ta; apply Rabs_pos).
  split; [| split].
  - replace (z - 2 * PI * x / s) with ((z - y * / s) + (y * / s - 2 * PI * x * / s)) by (unfold Rdiv; ring). eapply Rle_trans; [apply Rabs_triang |]. lra.
  - replace z with ((z - y * / s) + y * / s) by ring. eapply Rle_trans; [apply Rabs_triang |]. lra.
  - intros Hx. assert (0 <= y). { rewrite E1. apply round_ge_generic; [apply fexp_correct; reflexivity | apply valid_rnd_N | apply generic_format_0 |]. apply Rmult_le_pos; lra. }
    rewrite E2. apply round_ge_generic; [apply fexp_correct; reflexivity | apply valid_rnd_N | apply generic_format_0 |]. apply Rmult_le_pos; lra.
Qed.
Lemma width_R sr fc q : usual sr -> is_finite fc = true -> Rabs (R32 fc) <= 1000000 -> is_finite q = true ->
  is_finite (bp_width sr fc q) = true /\ R32 (bp_width sr fc q) = Rmin (rnd32 (R32 (bp_omega sr fc) / Rmax (R32 q) (R32 (decimal 1 3)))) 1 /\
  Rabs (R32 (bp_omega sr fc) / Rmax (R32 q) (R32 (decimal 1 3))) <= 6500000.
Proof.
  intros Us Ff Hf Fq. destruct (omega_R sr fc Us Ff Hf) as (Fo & _ & Ho & _). destruct milli_R as [Fm Hm]. destruct one_R as [O1 O2]. pose proof B60 as HB.
  destruct (fmax_R q (decimal 1 3) Fq Fm) as [Fx Ex]. set (m := Rmax (R32 q) (R32 (decimal 1 3))) in *.
  assert (Mb : 0.000999 <= m) by (unfold m, Rmax; destruct (Rle_dec (R32 q) (R32 (decimal 1 3))); lra).
  assert (Im : 0 <= / m <= 1002). { split; [left; apply Rinv_0_lt_compat; lra |]. apply Rle_trans with (/ 0.000999); [apply Rinv_le; lra | lra]. }
  assert (Qb : Rabs (R32 (bp_omega sr fc) / m) <= 6500000).
  { unfold Rdiv. rewrite Rabs_mult, (Rabs_pos_eq (/ m)) by lra. pose proof (Rabs_pos (R32 (bp_omega sr fc))). nra. }
  destruct (quot_R (bp_omega sr fc) (fmax q (decimal 1 3)) Fo Fx) as [F2 E2]; [rewrite Ex; lra | rewrite Ex; lra |]. rewrite Ex in E2.
  destruct (fmin_R _ fone F2 O2) as [F3 E3]. unfold bp_width. rewrite O1, E2 in E3. auto.
Qed.
Lemma radius_R sr fc q : usual sr -> is_finite fc = true -> Rabs (R32 fc) <= 1000000 -> is_finite q = true ->
  is_finite (bp_radius sr fc q) = true /\ R32 (bp_radius sr fc q) = rnd32 (1 - R32 (bp_width sr fc q)).
Proof.
  intros Us Ff Hf Fq. destruct (width_R sr fc q Us Ff Hf Fq) as (Fw & Ew & Hw). destruct one_R as [O1 O2]. pose proof B60 as HB.
  pose proof (rel (R32 (bp_omega sr fc) / Rmax (R32 q) (R32 (decimal 1 3)))) as Re. set (p := R32 (bp_omega sr fc) / _) in *. apply Rabs_le_inv in Re.
  assert (Wb : - 7000000 <= R32 (bp_width sr fc q) <= 1). { rewrite Ew. apply Rabs_le_inv in Hw. assert (Rabs p <= 6500000) by (apply Rabs_le; lra). unfold Rmin. destruct (Rle_dec (rnd32 p) 1); lra. }
  destruct (neg_big (bp_width sr fc q) Fw) as [Fn En]; [apply Rabs_le; lra |].
  destruct (PhasorProofs.fadd_R (fmul (bp_width sr fc q) (of_int (-1))) fone Fn O2) as [E1 F1].
  { rewrite O1, En. eapply Rle_lt_trans; [apply (rnd32_bound _ 60); [apply Rabs_le; lra | lia] |]. apply bpow_lt. lia. }
  unfold bp_radius. split; [exact F1 |]. rewrite E1, O1, En. apply (f_equal (fun r => rnd32 r)). ring.
Qed.
Lemma radius_unit sr fc q : usual sr -> is_finite fc = true -> 0 <= R32 fc <= 1000000 -> is_finite q = true ->
  is_finite (bp_radius sr fc q) = true /\ 0 <= R32 (bp_radius sr fc q) <= 1.
Proof.
  intros Us Ff Hf Fq. assert (Hf' : Rabs (R32 fc) <= 1000000) by (apply Rabs_le; lra).
  destruct (radius_R sr fc q Us Ff Hf' Fq) as [F E]. split; [exact F |]. rewrite E. apply rnd_unit.
  destruct (width_R sr fc q Us Ff Hf' Fq) as (_ & Ew & _). destruct (omega_R sr fc Us Ff Hf') as (_ & _ & _ & Ho). destruct milli_R as [_ Hm].
  assert (P : 0 <= rnd32 (R32 (bp_omega sr fc) / Rmax (R32 q) (R32 (decimal 1 3)))).
  { apply round_ge_generic; [apply fexp_correct; reflexivity | apply valid_rnd_N | apply generic_format_0 |].
    apply Rmult_le_pos; [apply Ho; lra |]. left. apply Rinv_0_lt_compat. unfold Rmax. destruct (Rle_dec (R32 q) (R32 (decimal 1 3))); lra. }
  rewrite Ew. unfold Rmin. destruct (Rle_dec _ 1); lra.
Qed.
Lemma radius_big sr fc q : usual sr -> is_finite fc = true -> -24000 <= R32 fc <= -1 -> is_finite q = true -> R32 q <= 10 ->
  is_finite (bp_radius sr fc q) = true /\ 1.0000025 <= R32 (bp_radius sr fc q) <= 7000000.
Proof.
  intros Us Ff Hf Fq Hq. assert (Hf' : Rabs (R32 fc) <= 1000000) by (apply Rabs_le; lra). pose proof pi_bounds as Hpi.
  destruct (radius_R sr fc q Us Ff Hf' Fq) as [F E]. split; [exact F |]. rewrite E. clear E.
  destruct (width_R sr fc q Us Ff Hf' Fq) as (_ & Ew & Hw). destruct (omega_R sr fc Us Ff Hf') as (_ & Ho & _ & _). destruct milli_R as [_ Hm].
  set (o := R32 (bp_omega sr fc)) in *. set (m := Rmax (R32 q) (R32 (decimal 1 3))) in *.
  assert (Mb : 0.000999 <= m <= 10) by (unfold m, Rmax; destruct (Rle_dec (R32 q) (R32 (decimal 1 3))); lra).
  destruct Us as [_ Hs]. unfold val in Hs. assert (Is : / 200000 <= / R32 sr <= / 1000) by (split; apply Rinv_le; lra).
  assert (Tb : 2 * PI * R32 fc / R32 sr <= - 0.0000314).
  { unfold Rdiv. assert (2 * PI * R32 fc <= - 6.28) by nra. nra. }
  rewrite (Rabs_left (2 * PI * R32 fc / R32 sr)) in Ho by lra. apply Rabs_le_inv in Ho.
  assert (Ob : o <= - 0.0000313) by lra.
  assert (Im : / 10 <= / m) by (apply Rinv_le; lra).
  assert (Pb : o / m <= - 0.00000313) by (unfold Rdiv; nra).
  apply Rabs_le_inv in Hw. pose proof (rel (o / m)) as R1. rewrite (Rabs_left (o / m)) in R1 by lra. apply Rabs_le_inv in R1.
  assert (W : - 6600000 <= R32 (bp_width sr fc q) <= - 0.0000031). { rewrite Ew. unfold Rmin. destruct (Rle_dec (rnd32 (o / m)) 1); lra. }
  pose proof (rel (1 - R32 (bp_width sr fc q))) as R2. rewrite (Rabs_pos_eq (1 - _)) in R2 by lra. apply Rabs_le_inv in R2. lra.
Qed.
(** The coefficient of y[-2]. *)
Definition bp_a2 (E : env) (r : f32) : f32 := fmul (fmul (if fltb fzero r then e_pow E r (of_int 2) else fzero) (of_int (-1))) (of_int (-1)).
Lemma a2_big E r : pow_accurate E -> is_finite r = true -> 1.0000025 <= R32 r <= 7000000 -> is_finite (bp_a2 E r) = true /\ 1 < R32 (bp_a2 E r).
Proof.
  intros HE Fr Hr. destruct (of_int_exact 2 ltac:(lia)) as [T1 T2]. pose proof B60 as HB.
  assert (P : Rpower (R32 r) 2 = R32 r * R32 r). { change 2 with (INR 2). rewrite Rpower_pow by lra. cbn. ring. }
  assert (Pb : 1.000005 <= R32 r * R32 r <= 49000000000000) by (split; nra).
  destruct (HE r (of_int 2) Fr T2 ltac:(unfold val; lra)) as [Fe He].
  { unfold val. rewrite T1. change (IZR 2) with 2. rewrite P. split.
    - apply Rle_trans with 1; [| lra]. change 1 with (bpow radix2 0). apply bpow_le. lia.
    - apply Rle_trans with (bpow radix2 60); [lra |]. apply bpow_le. lia. }
  unfold val in He. rewrite T1 in He. change (IZR 2) with 2 in He. rewrite P in He. apply Rabs_le_inv in He.
  unfold bp_a2. assert (Fl : fltb fzero r = true) by (rewrite fltb_R by (reflexivity || exact Fr); apply Rlt_bool_true; cbn; lra). rewrite Fl.
  destruct (neg_big _ Fe) as [Fn En]; [apply Rabs_le; lra |]. destruct (neg_big _ Fn) as [Fm Em]; [rewrite En, Rabs_Ropp; apply Rabs_le; lra |].
  split; [exact Fm |]. rewrite Em, En. lra.
Qed.
Lemma a2_unit E r : is_finite r = true -> 0 <= R32 r <= 1 -> (0 < R32 r -> is_finite (e_pow E r (of_int 2)) = true /\ 0 <= R32 (e_pow E r (of_int 2)) <= 1) ->
  is_finite (bp_a2 E r) = true /\ 0 <= R32 (bp_a2 E r) <= 1.
Proof.
  intros Fr Hr He. pose proof B60 as HB. unfold bp_a2. rewrite fltb_R by (reflexivity || exact Fr).
  assert (B : is_finite (if Rlt_bool (R32 fzero) (R32 r) then e_pow E r (of_int 2) else fzero) = true /\ 0 <= R32 (if Rlt_bool (R32 fzero) (R32 r) then e_pow E r (of_int 2) else fzero) <= 1).
  { destruct (Rlt_bool_spec (R32 fzero) (R32 r)) as [L | L]; [apply He; exact L |]. cbn. split; [reflexivity | lra]. }
  destruct B as [B1 B2]. destruct (neg_big _ B1) as [Fn En]; [apply Rabs_le; lra |]. destruct (neg_big _ Fn) as [Fm Em]; [rewrite En, Rabs_Ropp; apply Rabs_le; lra |].
  split; [exact Fm |]. rewrite Em, En. lra.
Qed.
(** ** hip~ after the cutoff has jumped. *)
Lemma hip_drop c g w : is_finite c = true -> 0 <= R32 c <= 0.00001 -> is_finite w = true -> 1000 <= R32 w <= 34000 -> is_finite g = true -> 0.4999 <= R32 g <= 0.5001 ->
  let y := snd (hip_step w (fmul c (of_int (-1))) g fone) in is_finite y = true /\ R32 y <= - 499.
Proof.
  intros Fc Hc Fw Hw Fg Hg. pose proof B60 as HB. destruct one_R as [O1 O2].
  destruct (neg_R c Fc ltac:(rewrite Rabs_pos_eq; lra)) as [Fb Eb]. set (b := fmul c (of_int (-1))) in *. cbn [hip_step snd]. cbv zeta.
  set (wr := R32 w) in *. assert (P : 0 <= R32 c * wr <= 0.34) by (clear - Hc Hw; nra).
  destruct (fmul_R b w 60 Fb Fw) as [Em Fm]; [rewrite Eb; fold wr; apply Rabs_le; lra | lia |]. rewrite Eb in Em. fold wr in Em.
  pose proof (rel (- R32 c * wr)) as Rm. rewrite <- Em in Rm. replace (Rabs (- R32 c * wr)) with (R32 c * wr) in Rm
    by (replace (- R32 c * wr) with (- (R32 c * wr)) by ring; rewrite Rabs_Ropp, Rabs_pos_eq; lra).
  apply Rabs_le_inv in Rm. set (m := R32 (fmul b w)) in *.
  destruct (fsub_R fone (fmul b w) 60 O2 Fm) as [Es Fs]; [rewrite O1; fold m; apply Rabs_le; lra | lia |]. rewrite O1 in Es. fold m in Es.
  pose proof (rel (1 - m)) as Rs. rewrite <- Es in Rs. rewrite (Rabs_pos_eq (1 - m)) in Rs by lra. apply Rabs_le_inv in Rs. set (v := R32 (fsub fone (fmul b w))) in *.
  assert (V : 0.9 <= v <= 1.35) by lra. clear Es Em Rs Rm.
  assert (E1 : R32 (fmul w fone) = wr /\ is_finite (fmul w fone) = true).
  { destruct (fmul_R w fone 60 Fw O2) as [E F]; [rewrite O1, Rmult_1_r; fold wr; apply Rabs_le; lra | lia |]. split; [| exact F]. rewrite E, O1, Rmult_1_r.
    apply round_generic; [apply valid_rnd_N | apply generic_format_B2R]. }
  destruct E1 as [E1 F1].
  destruct (fsub_R (fsub fone (fmul b w)) (fmul w fone) 60 Fs F1) as [Ed Fd]; [rewrite E1; fold v; apply Rabs_le; lra | lia |]. rewrite E1 in Ed. fold v in Ed.
  pose proof (rel (v - wr)) as Rd. rewrite <- Ed in Rd. rewrite (Rabs_left (v - wr)) in Rd by lra. apply Rabs_le_inv in Rd.
  set (d := R32 (fsub (fsub fone (fmul b w)) (fmul w fone))) in *. assert (D : - 34001 <= d <= - 998.6) by lra. clear Ed Rd.
  assert (Dg : - 17010 <= d * R32 g <= - 499.2) by (clear - D Hg; nra).
  destruct (fmul_R _ g 60 Fd Fg) as [Ey Fy]; [fold d; apply Rabs_le; lra | lia |]. fold d in Ey. split; [exact Fy |]. rewrite Ey.
  pose proof (rel (d * R32 g)) as Ry. rewrite (Rabs_left (d * R32 g)) in Ry by lra. apply Rabs_le_inv in Ry. lra.
Qed.
