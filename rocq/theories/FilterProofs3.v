(** hip~ and bp~ as real numbers. *)
From Verif Require PhasorProofs.
From Verif Require Import FilterSpec FilterProofs2 Float32Facts RecorderProofs SndProofs5 SndProofs6 SndProofs7 NoiseProofs2.
From Coq Require Import Reals Lra Lia.
From Flocq Require Import Core.
Open Scope R_scope.

Lemma B60 : 1000000000000000 <= bpow radix2 60.
Proof. change (bpow radix2 60) with (IZR (2 ^ 60)). apply IZR_le. lia. Qed.
Lemma bound x k : Rabs x <= k -> - k <= x <= k.
Proof. apply Rabs_le_inv. Qed.
(** Negation through a product. *)
Lemma neg_R k : is_finite k = true -> Rabs (R32 k) <= 1 -> is_finite (fmul k (of_int (-1))) = true /\ R32 (fmul k (of_int (-1))) = - R32 k.
Proof.
  intros F H. destruct (of_int_exact (-1) ltac:(lia)) as [O1 O2]. pose proof B60.
  destruct (fmul_R k (of_int (-1)) 60 F O2) as [E F']; [| lia |]; rewrite O1 in *.
  - replace (R32 k * -1) with (- R32 k) by ring. rewrite Rabs_Ropp. lra.
  - split; [exact F' |]. rewrite E. replace (R32 k * -1) with (- R32 k) by ring.
    rewrite round_generic; [reflexivity | apply valid_rnd_N |]. apply generic_format_opp, generic_format_B2R.
Qed.
Definition small_state (k w : R) : Prop := Rabs w * (1 - k) <= 1.01.
Lemma hip_next k g w1 x : is_finite k = true -> 0 <= R32 k <= 1 - 3 / 100000 -> is_finite w1 = true -> small_state (R32 k) (R32 w1) ->
  is_finite x = true -> Rabs (R32 x) <= 1 -> is_finite g = true -> 0 <= R32 g <= 1.0001 ->
  let b := fmul k (of_int (-1)) in
  is_finite (fst (hip_step w1 b g x)) = true /\ small_state (R32 k) (R32 (fst (hip_step w1 b g x))) /\
  is_finite (snd (hip_step w1 b g x)) = true /\ Rabs (R32 (snd (hip_step w1 b g x))) <= 2.02.
Proof.
  intros Fk Hk Fw Hw Fx Hx Fg Hg b. pose proof B60 as HB.
  destruct (neg_R k Fk) as [Fb Eb]; [rewrite Rabs_pos_eq; lra |]. fold b in Fb, Eb.
  cbn [hip_step fst snd]. unfold small_state in *. set (c := R32 k) in *. set (w := R32 w1) in *.
  assert (W : Rabs w <= 34000) by nra.
  assert (P : Rabs (- c * w) <= 34000). { rewrite Rabs_mult, Rabs_Ropp, (Rabs_pos_eq c) by lra. pose proof (Rabs_pos w). nra. }
  destruct (fmul_R b w1 60 Fb Fw) as [Em Fm]; [rewrite Eb; fold w; lra | lia |]. rewrite Eb in Em. fold w in Em.
  pose proof (rel (- c * w)) as Rm. rewrite <- Em in Rm. set (m := R32 (fmul b w1)) in *.
  assert (Pe : Rabs (- c * w) = c * Rabs w) by (rewrite Rabs_mult, Rabs_Ropp, (Rabs_pos_eq c) by lra; reflexivity).
  rewrite Pe in *. set (a := Rabs w) in *.
  assert (A : - a <= w <= a) by (apply bound; unfold a; lra). assert (A0 : 0 <= a) by apply Rabs_pos.
  apply bound in Hx. apply bound in Rm.
  assert (CA : 0 <= c * a <= 34000) by (split; [apply Rmult_le_pos; lra | lra]).
  assert (CW : - (c * a) <= c * w <= c * a) by (clear - A A0 Hk; split; nra).
  destruct (fsub_R x (fmul b w1) 60 Fx Fm) as [Es Fs]; [fold m; apply Rabs_le; lra | lia |]. fold m in Es.
  pose proof (rel (R32 x - m)) as Rs. rewrite <- Es in Rs. set (v := R32 (fsub x (fmul b w1))) in *.
  assert (Ab : Rabs (R32 x - m) <= 1.000001 + 1.000001 * (c * a)) by (apply Rabs_le; lra).
  apply bound in Rs.
  (* the exact next state, to within 0.0043 *)
  assert (D : - (0.0000001193 * (c * a) + 0.0000001) <= v - (R32 x + c * w) <= 0.0000001193 * (c * a) + 0.0000001) by lra.
  clear Em Es Rs Ab Rm.
  assert (Bv : small_state c v).
  { unfold small_state. assert (Va : Rabs v <= 1.0000001 + 1.0000001193 * (c * a)) by (apply Rabs_le; lra).
    apply Rle_trans with ((1.0000001 + 1.0000001193 * (c * a)) * (1 - c)); [apply Rmult_le_compat_r; lra |].
    assert (c * a * (1 - c) <= c * 1.01) by nra. nra. }
  split; [exact Fs |]. split; [exact Bv |].
  destruct one_R as [O1 O2].
  assert (E1 : R32 (fmul w1 fone) = w /\ is_finite (fmul w1 fone) = true).
  { destruct (fmul_R w1 fone 60 Fw O2) as [E F]; [rewrite O1, Rmult_1_r; fold w a; lra | lia |]. split; [| exact F]. rewrite E, O1, Rmult_1_r.
    apply round_generic; [apply valid_rnd_N | apply generic_format_B2R]. }
  destruct E1 as [E1 F1].
  assert (Vw : - 2.0145 <= v - w <= 2.0145).
  { assert (- 1.01 <= w - c * w <= 1.01). { replace (w - c * w) with (w * (1 - c)) by ring. split; nra. } lra. }
  destruct (fsub_R (fsub x (fmul b w1)) (fmul w1 fone) 60 Fs F1) as [Ed Fd]; [rewrite E1; fold v; apply Rabs_le; lra | lia |].
  rewrite E1 in Ed. fold v in Ed. pose proof (rel (v - w)) as Rd. rewrite <- Ed in Rd. set (d := R32 (fsub (fsub x (fmul b w1)) (fmul w1 fone))) in *.
  assert (Ad : Rabs (v - w) <= 2.0145) by (apply Rabs_le; lra). apply bound in Rd.
  assert (Hd : Rabs d <= 2.01451) by (apply Rabs_le; lra).
  assert (Dg : Rabs (d * R32 g) <= 2.015). { rewrite Rabs_mult, (Rabs_pos_eq (R32 g)) by lra. pose proof (Rabs_pos d). nra. }
  destruct (fmul_R _ g 60 Fd Fg) as [Ey Fy]; [fold d; lra | lia |]. fold d in Ey. split; [exact Fy |]. rewrite Ey.
  pose proof (rel (d * R32 g)) as Ry. apply bound in Dg. apply bound in Ry. assert (Rabs (d * R32 g) <= 2.015) by (apply Rabs_le; lra). apply Rabs_le. lra.
Qed.
Lemma gain_R k : is_finite k = true -> 0 <= R32 k <= 1 -> is_finite (hip_gain k) = true /\ Rabs (R32 (hip_gain k) - (1 + R32 k) / 2) <= / 4000000.
Proof.
  intros F H. destruct one_R as [O1 O2]. pose proof B60.
  destruct (PhasorProofs.fadd_R k fone F O2) as [E1 F1].
  { rewrite O1. eapply Rle_lt_trans; [apply (rnd32_bound _ 60); [rewrite Rabs_pos_eq; lra | lia] |]. apply bpow_lt. lia. }
  rewrite O1 in E1. assert (R1 : Rabs (R32 (fadd k fone) - (R32 k + 1)) <= / 16777216 * Rabs (R32 k + 1) + / 1000000000000) by (rewrite E1; exact (rel _)).
  rewrite (Rabs_pos_eq (R32 k + 1)) in R1 by lra. apply bound in R1.
  assert (Eh : R32 (decimal 5 1) = 0.5 /\ is_finite (decimal 5 1) = true).
  { destruct c_half as [A B]. split; [| exact A]. apply bound in B. lra. }
  destruct Eh as [Eh Fh].
  destruct (fmul_R _ _ 60 F1 Fh) as [E2 F2]; [rewrite Eh; apply Rabs_le; lra | lia |]. split; [exact F2 |]. unfold hip_gain. rewrite E2, Eh.
  pose proof (rel (R32 (fadd k fone) * 0.5)) as R2. rewrite (Rabs_pos_eq (_ * _)) in R2 by lra. apply bound in R2. apply Rabs_le. lra.
Qed.
Lemma hip_all k l : is_finite k = true -> 0 <= R32 k <= 1 - 3 / 100000 -> forall w1, is_finite w1 = true -> small_state (R32 k) (R32 w1) ->
  Forall (fun x => is_finite x = true /\ Rabs (R32 x) <= 1) l ->
  Forall (fun y => is_finite y = true /\ Rabs (R32 y) <= 2.02) (hip_run w1 (map (fun x => (fmul k (of_int (-1)), hip_gain k, x)) l)).
Proof.
  intros Fk Hk. destruct (gain_R k Fk ltac:(lra)) as [Fg Hg]. apply bound in Hg.
  induction l as [| x l IH]; intros w1 Fw Hw H; [constructor |]. inversion H as [| ? ? [Fx Hx] H' ]. subst.
  destruct (hip_next k (hip_gain k) w1 x Fk Hk Fw Hw Fx Hx Fg ltac:(lra)) as (A & B & C & D). cbn [map hip_run].
  destruct (hip_step w1 _ _ x) as [w y]. cbn [fst snd] in *. constructor; [split; assumption |]. apply IH; assumption.
Qed.
(** ** Changing the cutoff. *)
Fixpoint hip_state (w1 : f32) (l : list (f32 * f32 * f32)) : f32 :=
  match l with [] => w1 | (b, g, x) :: l' => hip_state (fst (hip_step w1 b g x)) l' end.
Lemma hip_run_app l1 l2 : forall w1, hip_run w1 (l1 ++ l2) = hip_run w1 l1 ++ hip_run (hip_state w1 l1) l2.
Proof.
  induction l1 as [| [[b g] x] l1 IH]; intros w1; [reflexivity |]. cbn [app hip_run hip_state]. destruct (hip_step w1 b g x) as [w y]. cbn [fst app]. f_equal. apply IH.
Qed.
Lemma hip_up k g w1 n : is_finite k = true -> 0.9998 <= R32 k <= 1 - 3 / 100000 -> is_finite w1 = true -> small_state (R32 k) (R32 w1) ->
  is_finite g = true -> 0 <= R32 g <= 1.0001 -> 0 <= n -> Rmin (n / 2) 1000 <= R32 w1 ->
  Rmin ((n + 1) / 2) 1000 <= R32 (fst (hip_step w1 (fmul k (of_int (-1))) g fone)).
Proof.
  intros Fk Hk Fw Hw Fg Hg Hn Hlow. pose proof B60 as HB. destruct one_R as [O1 O2].
  destruct (neg_R k Fk) as [Fb Eb]; [rewrite Rabs_pos_eq; lra |]. set (b := fmul k (of_int (-1))) in *.
  cbn [hip_step fst]. unfold small_state in *. set (c := R32 k) in *. set (w := R32 w1) in *.
  assert (W0 : 0 <= w). { revert Hlow. unfold Rmin. destruct (Rle_dec (n / 2) 1000); lra. }
  rewrite (Rabs_pos_eq w) in Hw by lra. assert (W : w <= 34000) by (clear - Hw Hk W0; nra).
  assert (CW : 0 <= c * w <= 34000) by (clear - W W0 Hk; nra).
  destruct (fmul_R b w1 60 Fb Fw) as [Em Fm]; [rewrite Eb; fold w; apply Rabs_le; lra | lia |]. rewrite Eb in Em. fold w in Em.
  pose proof (rel (- c * w)) as Rm. rewrite <- Em in Rm. set (m := R32 (fmul b w1)) in *.
  replace (Rabs (- c * w)) with (c * w) in Rm by (replace (- c * w) with (- (c * w)) by ring; rewrite Rabs_Ropp, Rabs_pos_eq; lra).
  apply bound in Rm.
  destruct (fsub_R fone (fmul b w1) 60 O2 Fm) as [Es Fs]; [rewrite O1; fold m; apply Rabs_le; lra | lia |]. rewrite O1 in Es. fold m in Es.
  pose proof (rel (1 - m)) as Rs. rewrite <- Es in Rs. rewrite (Rabs_pos_eq (1 - m)) in Rs by lra. apply bound in Rs.
  set (v := R32 (fsub fone (fmul b w1))) in *. clear Es Em.
  assert (Lw : 0.9998 * w <= c * w) by (apply Rmult_le_compat_r; lra).
  assert (V : 0.99 + 0.9997 * w <= v) by lra. clear - V Hlow Hn W0. revert Hlow. unfold Rmin.
  destruct (Rle_dec (n / 2) 1000), (Rle_dec ((n + 1) / 2) 1000); lra.
Qed.
Lemma hip_fills k g n : is_finite k = true -> 0.9998 <= R32 k <= 1 - 3 / 100000 -> is_finite g = true -> 0 <= R32 g <= 1.0001 ->
  forall w1 m, is_finite w1 = true -> small_state (R32 k) (R32 w1) -> 0 <= m -> Rmin (m / 2) 1000 <= R32 w1 ->
  let w := hip_state w1 (repeat (fmul k (of_int (-1)), g, fone) n) in
  is_finite w = true /\ small_state (R32 k) (R32 w) /\ Rmin ((m + INR n) / 2) 1000 <= R32 w.
Proof.
  intros Fk Hk Fg Hg. destruct one_R as [O1 O2]. assert (Ao : Rabs (R32 fone) <= 1) by (rewrite O1; apply Rabs_le; lra).
  induction n as [| n IH]; intros w1 m Fw Hw Hm Hlow w.
  - cbn [repeat hip_state INR] in w |- *. subst w. rewrite Rplus_0_r. auto.
  - subst w. cbn [repeat hip_state]. destruct (hip_next k g w1 fone Fk ltac:(lra) Fw Hw O2 Ao Fg Hg) as (A & B & _).
    rewrite S_INR. replace (m + (INR n + 1)) with ((m + 1) + INR n) by ring. apply IH; [exact A | exact B | lra |]. apply hip_up; auto.
Qed.
(** ** bp~ *)
Lemma rnd_unit r : 0 <= r <= 1 -> 0 <= rnd32 r <= 1.
Proof.
  intros H. split.
  - rewrite <- (round_0 radix2 (SpecFloat.fexp 24 128) (round_mode mode_NE)). apply round_le; [apply fexp_correct; reflexivity | apply valid_rnd_N | lra].
  - destruct one_R as [O1 _]. rewrite <- O1. rewrite <- (round_generic radix2 (SpecFloat.fexp 24 128) (round_mode mode_NE) (R32 fone)) at 1;
    [| apply generic_format_B2R].
    apply round_le; [apply fexp_correct; reflexivity | apply valid_rnd_N | rewrite O1; lra].
Qed.
