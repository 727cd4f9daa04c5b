(** lop~, hip~ and bp~: what their message objects tell their signal objects, and what follows for the sound. *)
From Verif Require Import FilterSpec PatchProofs16 FilterProofs FilterProofs2 FilterProofs3 FilterProofs4 SndProps Float32Facts.
From Coq Require Import Lia Reals Lra.
From Flocq Require Import Core.
Open Scope Z_scope.

(** The coefficient is sent when the patch is loaded and after every number at the right inlet. *)
Theorem lop_follows_its_cutoff E fc l :
  sends E (lop_ctl fc) (map cutoff_event l) (lop_sends (rate E) (0, fc) ++ flat_map (lop_sends (rate E)) l).
Proof. apply lop_plays. Qed.
Print Assumptions lop_follows_its_cutoff.
Theorem lop_coefficient sr fc : usual sr -> is_finite fc = true -> (Rabs (val fc) <= 1000000)%R ->
  (Rabs (val (lop_coef sr fc) - Rmax (Rmin (2 * PI * val fc / val sr) 1) 0) <= / 100000)%R.
Proof. apply lop_close. Qed.
Print Assumptions lop_coefficient.
(** Whatever floats are sent to the inlet (not numbers, infinities and negative numbers too): the filter is told [k] and [k - 1], and
    with the coefficients it is told its output stays within 1 if its input does. *)
Theorem lop_bounded_whatever_is_sent E fc l : exists outs, sends E (lop_ctl fc) (map cutoff_event l) outs /\
  (forall t k, In (t, 0%nat, [EF k]) outs -> In (t, 1%nat, [EF (fsub k fone)]) outs) /\
  (forall samples ym, quiet ym -> (forall k x, In (k, x) samples -> told outs 0 k /\ quiet x) ->
     forall y, In y (lop_run ym samples) -> quiet y).
Proof.
  eexists. split; [apply lop_plays |].
  assert (H : forall t i k, In (t, i, [EF k]) (lop_sends (rate E) (0, fc) ++ flat_map (lop_sends (rate E)) l) ->
    exists c, (i, k) = (0%nat, lop_coef (rate E) c) /\ In (t, 1%nat, [EF (fsub k fone)]) (lop_sends (rate E) (0, fc) ++ flat_map (lop_sends (rate E)) l) \/ i = 1%nat).
  { intros t i k I. apply in_app_or in I. destruct I as [I | I].
    - destruct I as [I | [I | []]]; apply (f_equal (fun x => match x with (t, i, [EF k]) => (t, i, k) | _ => (0, 0%nat, fone) end)) in I.
      + exists fc. right. congruence.
      + exists fc. left. split; [congruence |]. apply in_or_app. left. left. congruence.
    - apply in_flat_map in I as ([t' c] & I1 & I2). destruct I2 as [I | [I | []]]; apply (f_equal (fun x => match x with (t, i, [EF k]) => (t, i, k) | _ => (0, 0%nat, fone) end)) in I.
      + exists c. right. congruence.
      + exists c. left. split; [congruence |]. apply in_or_app. right. apply in_flat_map. exists (t', c). split; [exact I1 |]. left. congruence. }
  split.
  - intros t k I. destruct (H t 0%nat k I) as [c [[_ A] | A]]; [exact A | discriminate A].
  - intros samples ym [Fm Hm] Hs. apply lop_stays_bounded; [exact Fm | exact Hm |]. intros k x I. destruct (Hs k x I) as [[t It] [Fx Hx]].
    destruct (H t 0%nat k It) as [c [[A _] | A]]; [| discriminate A]. apply (f_equal snd) in A. cbn [snd] in A. rewrite A.
    destruct (clip_range (fmul c (quot two_pi (rate E)))) as [B1 B2]. split; [exact B1 |]. split; [exact B2 |]. split; [exact Fx | exact Hx].
Qed.
Print Assumptions lop_bounded_whatever_is_sent.

Theorem hip_follows_its_cutoff E fc l :
  sends E (hip_ctl fc) (map cutoff_event l) (hip_sends (rate E) (0, fc) ++ flat_map (hip_sends (rate E)) l).
Proof. apply hip_plays. Qed.
Print Assumptions hip_follows_its_cutoff.
(** Cutoffs below 1 Hz count as 1 Hz. *)
Theorem hip_coefficient sr fc : usual sr -> is_finite fc = true -> (Rabs (val fc) <= 1000000)%R ->
  (Rabs (val (hip_coef sr fc) - Rmax (1 - 2 * PI * Rmax (val fc) 1 / val sr) 0) <= / 100000)%R /\
  (Rabs (val (hip_gain (hip_coef sr fc)) - (1 + val (hip_coef sr fc)) / 2) <= / 4000000)%R.
Proof.
  intros Us Ff Hf. destruct (hip_close sr fc Us Ff Hf) as (A & B & C). split; [exact C |]. apply gain_R; [exact A |]. lra.
Qed.
Print Assumptions hip_coefficient.
(** With an unchanged cutoff, from silence: at most about twice the input. *)
Theorem hip_stays_bounded sr fc l : usual sr -> is_finite fc = true -> (Rabs (val fc) <= 1000000)%R -> (forall x, In x l -> quiet x) ->
  let k := hip_coef sr fc in
  forall y, In y (hip_run fzero (map (fun x => (fmul k (of_int (-1)), hip_gain k, x)) l)) -> is_finite y = true /\ (Rabs (val y) <= 2.02)%R.
Proof.
  intros Us Ff Hf Hl k y I. destruct (hip_close sr fc Us Ff Hf) as (A & B & _).
  pose proof (hip_all k l A B fzero eq_refl) as P. assert (S0 : small_state (B2R k) (B2R fzero)) by (unfold small_state; change (B2R fzero) with 0%R; rewrite Rabs_R0; lra).
  specialize (P S0 (proj2 (Forall_forall _ l) Hl)). rewrite Forall_forall in P. exact (P y I).
Qed.
Print Assumptions hip_stays_bounded.
(** But not when the cutoff changes: from 1 Hz to 20 kHz at 48 kHz, with an input of 1 throughout. *)
Theorem hip_stays_bounded_refuted : forall n, (2000 <= INR n)%R ->
  let sample c := (fmul (hip_coef (of_int 48000) (of_int c)) (of_int (-1)), hip_gain (hip_coef (of_int 48000) (of_int c)), fone) in
  exists l y, hip_run fzero (repeat (sample 1) n ++ [sample 20000]) = l ++ [y] /\ is_finite y = true /\ (val y <= - 499)%R.
Proof.
  intros n Hn sample. destruct (of_int_exact 48000 ltac:(lia)) as [R1 R2]. destruct (of_int_exact 1 ltac:(lia)) as [C1 C2]. destruct (of_int_exact 20000 ltac:(lia)) as [D1 D2].
  assert (Us : usual (of_int 48000)) by (split; [exact R2 | unfold val; rewrite R1; lra]). pose proof SndProofs7.pi_bounds as Hpi.
  destruct (hip_close (of_int 48000) (of_int 1) Us C2 ltac:(rewrite C1; apply Rabs_le; lra)) as (Fk & Hk & Ek).
  destruct (hip_close (of_int 48000) (of_int 20000) Us D2 ltac:(rewrite D1; apply Rabs_le; lra)) as (Fc & Hc & Ec).
  rewrite R1, C1 in Ek. rewrite R1, D1 in Ec. set (k := hip_coef (of_int 48000) (of_int 1)) in *. set (c := hip_coef (of_int 48000) (of_int 20000)) in *.
  assert (K0 : (0.9998 <= B2R k)%R).
  { apply Rabs_le_inv in Ek. revert Ek. unfold Rmax. destruct (Rle_dec 1 1); destruct (Rle_dec _ 0); unfold Rdiv in *; lra. }
  assert (Cz : (B2R c <= 0.00001)%R).
  { apply Rabs_le_inv in Ec. revert Ec. unfold Rmax. destruct (Rle_dec 20000 1); destruct (Rle_dec _ 0); unfold Rdiv in *; lra. }
  destruct (gain_R k Fk ltac:(lra)) as [Gk Hgk]. destruct (gain_R c Fc ltac:(lra)) as [Gc Hgc]. apply Rabs_le_inv in Hgk. apply Rabs_le_inv in Hgc.
  destruct (hip_fills k (hip_gain k) n Fk ltac:(lra) Gk ltac:(lra) fzero 0%R eq_refl) as (Fw & Hw & Lw).
  { unfold small_state. change (B2R fzero) with 0%R. rewrite Rabs_R0. lra. } { lra. } { change (B2R fzero) with 0%R. unfold Rmin. destruct (Rle_dec (0 / 2) 1000); lra. }
  set (w := hip_state fzero (repeat (fmul k (of_int (-1)), hip_gain k, fone) n)) in *.
  exists (hip_run fzero (repeat (fmul k (of_int (-1)), hip_gain k, fone) n)), (snd (hip_step w (fmul c (of_int (-1))) (hip_gain c) fone)).
  split; [unfold sample; fold k c; rewrite hip_run_app; fold w; cbn [hip_run]; destruct (hip_step w _ _ _); reflexivity |].
  assert (W1 : (1000 <= B2R w)%R). { revert Lw. unfold Rmin. destruct (Rle_dec ((0 + INR n) / 2) 1000); lra. }
  unfold small_state in Hw. rewrite Rabs_pos_eq in Hw by lra. assert (W2 : (B2R w <= 34000)%R) by (clear - Hw Hk W1; nra).
  apply hip_drop; [exact Fc | lra | exact Fw | lra | exact Gc | lra].
Qed.
Print Assumptions hip_stays_bounded_refuted.

Theorem bp_follows_cutoff_and_q E fc q l : sends E (bp_ctl fc q) (map bp_event l) (bp_sends E 0 fc q ++ bp_spec E fc q l).
Proof. apply bp_plays. Qed.
Print Assumptions bp_follows_cutoff_and_q.
(** The poles lie within the unit circle (a2 is the square of their distance from 0) for cutoffs that are not negative: [r] is between 0
    and 1, and so is a2 if the C library's pow squares such a number to one between 0 and 1. *)
Theorem bp_poles_in_the_circle E t fc q a2 : usual (rate E) -> is_finite fc = true -> (0 <= val fc <= 1000000)%R -> is_finite q = true ->
  (forall r, is_finite r = true -> (0 < val r <= 1)%R -> is_finite (e_pow E r (of_int 2)) = true /\ (0 <= val (e_pow E r (of_int 2)) <= 1)%R) ->
  told (bp_sends E t fc q) 2 a2 -> is_finite a2 = true /\ (0 <= val a2 <= 1)%R.
Proof.
  intros Us Ff Hf Fq HE [t' I]. destruct (radius_unit (rate E) fc q Us Ff Hf Fq) as [Fr Hr].
  assert (A : a2 = bp_a2 E (bp_radius (rate E) fc q)).
  { destruct I as [I | [I | [I | []]]]; apply (f_equal (fun x => match x with (t, i, [EF k]) => (i, k) | _ => (0%nat, fone) end)) in I; [apply (f_equal snd) in I; symmetry; exact I | |]; apply (f_equal fst) in I; discriminate I. }
  rewrite A. apply a2_unit; [exact Fr | exact Hr |]. intros H. apply HE; [exact Fr |]. unfold val. lra.
Qed.
Print Assumptions bp_poles_in_the_circle.
(** For a negative cutoff they lie outside: the output grows without end. *)
Theorem bp_poles_in_the_circle_refuted E t fc q : pow_accurate E -> usual (rate E) -> is_finite fc = true -> (-24000 <= val fc <= -1)%R ->
  is_finite q = true -> (val q <= 10)%R -> exists a2, told (bp_sends E t fc q) 2 a2 /\ is_finite a2 = true /\ (1 < val a2)%R.
Proof.
  intros HE Us Ff Hf Fq Hq. destruct (radius_big (rate E) fc q Us Ff Hf Fq Hq) as [Fr Hr].
  exists (bp_a2 E (bp_radius (rate E) fc q)). split; [exists t; left; reflexivity |]. apply a2_big; assumption.
Qed.
Print Assumptions bp_poles_in_the_circle_refuted.

(** 48 kHz is a usual rate, and 440 Hz, -5 and "not a number" can be sent. *)
Example rate_48 : usual (rate (exact_env 48000)).
Proof.
  assert (H : rate (exact_env 48000) = of_int 48000) by (apply B2SF_inj; vm_compute; reflexivity). rewrite H.
  destruct (of_int_exact 48000 ltac:(lia)) as [A B]. split; [exact B |]. unfold val. rewrite A. lra.
Qed.
Example lop_440 : (Rabs (val (lop_coef (of_int 48000) (of_int 440)) - Rmax (Rmin (2 * PI * 440 / 48000) 1) 0) <= / 100000)%R.
Proof.
  destruct (of_int_exact 48000 ltac:(lia)) as [A B]. destruct (of_int_exact 440 ltac:(lia)) as [C D].
  rewrite <- C, <- A. apply lop_coefficient; [split; [exact B | unfold val; rewrite A; lra] | exact D | unfold val; rewrite C; apply Rabs_le; lra].
Qed.
Example lop_nan : exists outs, sends (exact_env 48000) (lop_ctl (of_int 440)) (map cutoff_event [(0, B754_nan); (64, of_int (-5))]) outs /\ told outs 0 (lop_coef (rate (exact_env 48000)) B754_nan).
Proof. eexists. split; [apply lop_follows_its_cutoff |]. exists 0. cbn [lop_sends app flat_map In]. tauto. Qed.
Example hip_loud : exists l y, hip_run fzero (repeat (fmul (hip_coef (of_int 48000) (of_int 1)) (of_int (-1)), hip_gain (hip_coef (of_int 48000) (of_int 1)), fone) (20 * 100) ++
  [(fmul (hip_coef (of_int 48000) (of_int 20000)) (of_int (-1)), hip_gain (hip_coef (of_int 48000) (of_int 20000)), fone)]) = l ++ [y] /\ (val y <= - 499)%R.
Proof. destruct (hip_stays_bounded_refuted (20 * 100)) as (l & y & A & _ & B); [rewrite mult_INR, !INR_IZR_INZ; cbn; lra |]. exists l, y. split; [exact A | exact B]. Qed.
(** The exact square is between 0 and 1, and bp~ at -440 Hz is unstable. *)
Example exact_square : forall r, is_finite r = true -> (0 < val r <= 1)%R ->
  is_finite (e_pow (exact_env 48000) r (of_int 2)) = true /\ (0 <= val (e_pow (exact_env 48000) r (of_int 2)) <= 1)%R.
Proof.
  intros r F H. cbn [e_pow exact_env]. destruct (of_int_exact 2 ltac:(lia)) as [T1 _]. unfold val in *. rewrite T1.
  assert (P : Rpower (B2R r) 2 = (B2R r * B2R r)%R). { change 2%R with (INR 2). rewrite Rpower_pow by lra. cbn. ring. }
  change (IZR 2) with 2%R. rewrite P. assert (Q : (0 <= B2R r * B2R r <= 1)%R) by nra. pose proof (rnd_unit _ Q) as U. change (round_mode mode_NE) with ZnearestE in U.
  destruct (nearest_R (B2R r * B2R r)) as [A B]; [| split; [exact B | rewrite A; exact U]].
  rewrite Rabs_pos_eq by (apply U). eapply Rle_lt_trans; [apply U |]. change 1%R with (bpow radix2 0). apply bpow_lt. lia.
Qed.
Example bp_minus : exists a2, told (bp_sends (exact_env 48000) 0 (of_int (-440)) (of_int 1)) 2 a2 /\ is_finite a2 = true /\ (1 < val a2)%R.
Proof.
  destruct (of_int_exact (-440) ltac:(lia)) as [A B]. destruct (of_int_exact 1 ltac:(lia)) as [C D].
  apply bp_poles_in_the_circle_refuted; [apply exact_pow | apply rate_48 | exact B | unfold val; rewrite A; lra | exact D | unfold val; rewrite C; lra].
Qed.
