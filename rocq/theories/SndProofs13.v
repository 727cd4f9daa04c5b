(** lop~ *)
From Verif Require Import SndModel SndSpec SndProofs SndProofs2 SndProofs3 SndProofs4 SndProofs5 SndProofs6 Float32Facts.
From Flocq Require Import Core.
From Coq Require Import Reals Lia Lra.
Local Open Scope R_scope.
Definition unit_f (x : f32) := is_finite x = true /\ Rabs (R32 x) <= 1.
Lemma small_lt r : Rabs r <= 4 -> Rabs (rnd32 r) < bpow radix2 128.
Proof. intro H. apply rnd_small. lra. Qed.
Lemma rnd_mono a b : a <= b -> rnd32 a <= rnd32 b.
Proof. intro H. apply round_le; auto; [apply fexp_correct; reflexivity|apply valid_rnd_N]. Qed.
Lemma rnd_id x : rnd32 (R32 x) = R32 x.
Proof. apply round_generic; [apply valid_rnd_N|apply (generic_format_B2R 24 128)]. Qed.
Lemma rnd_opp r : rnd32 (- r) = - rnd32 r.
Proof. apply round_NE_opp. Qed.
Lemma rnd_abs_le r x : Rabs r <= R32 x -> Rabs (rnd32 r) <= R32 x.
Proof.
  intro H. apply Rabs_le_inv in H. apply Rabs_le. split.
  - rewrite <- (rnd_id x), <- rnd_opp. apply rnd_mono. lra.
  - rewrite <- (rnd_id x). apply rnd_mono. lra.
Qed.
Lemma one_R : R32 fone = 1 /\ is_finite fone = true.
Proof. split; [|reflexivity]. rewrite <- SF2R_B2SF. replace (B2SF fone) with (SpecFloat.S754_finite false 8388608 (-23)) by (vm_compute; reflexivity). cbn [SF2R]. unfold F2R. cbn [Fnum Fexp cond_Zopp].
  replace (bpow radix2 (-23)) with (/ 8388608) by reflexivity. lra. Qed.
Lemma rnd_tie : rnd32 (1 + / 33554432) = 1.
Proof.
  pose proof (binary_normalize_correct 24 128 _ _ mode_NE 33554433 (-25) false) as N. cbv zeta in N. change (round_mode mode_NE) with ZnearestE in N.
  assert (E : F2R (Float radix2 33554433 (-25)) = 1 + / 33554432). { unfold F2R. cbn [Fnum Fexp]. replace (bpow radix2 (-25)) with (/ 33554432) by reflexivity. lra. }
  rewrite E in N. rewrite Rlt_bool_true in N by (apply small_lt; rewrite Rabs_pos_eq; lra). destruct N as (N & _). rewrite <- N.
  destruct one_R as [O _]. rewrite <- O. rewrite <- !SF2R_B2SF. f_equal. 
Qed.
Lemma lop_bounded ym k x : unit_f ym -> unit_f x -> is_finite k = true -> 0 <= R32 k <= 1 -> unit_f (lop_step ym k x).
Proof.
  intros [Fy Hy] [Fx Hx] Fk Hk. unfold lop_step. destruct one_R as [O1 O2].
  set (Y := R32 ym) in *. set (X := R32 x) in *. set (K := R32 k) in *.
  pose proof (Bmult_correct 24 128 _ _ mode_NE x k) as C. change (round_mode mode_NE) with ZnearestE in C. fold X K in C.
  assert (P1 : Rabs (X * K) <= K). { rewrite Rabs_mult, (Rabs_pos_eq K) by lra. rewrite <- (Rmult_1_l K) at 2. apply Rmult_le_compat_r; lra. }
  rewrite Rlt_bool_true in C by (apply small_lt; lra). destruct C as (C1 & C2 & _).
  pose proof (Bminus_correct 24 128 _ _ mode_NE k fone Fk O2) as D. change (round_mode mode_NE) with ZnearestE in D. fold K in D. rewrite O1 in D.
  rewrite Rlt_bool_true in D by (apply small_lt; apply Rabs_le; lra). destruct D as (D1 & D2 & _).
  set (b := fsub k fone) in *. change (Bminus mode_NE k fone) with b in D1, D2.
  assert (B1 : Rabs (rnd32 (K - 1) - (K - 1)) <= / 33554432) by (apply rnd_near1; apply Rabs_le; lra).
  assert (B2 : Rabs (R32 b) <= 1). { rewrite <- O1, D1. apply rnd_abs_le. rewrite O1. apply Rabs_le. lra. }
  assert (B3 : R32 b <= 0). { rewrite D1. rewrite <- (round_0 radix2 fexp32 ZnearestE). apply rnd_mono. lra. }
  rewrite <- D1 in B1. set (B := R32 b) in *.
  pose proof (Bmult_correct 24 128 _ _ mode_NE b ym) as E. change (round_mode mode_NE) with ZnearestE in E. fold B Y in E.
  assert (P2 : Rabs (B * Y) <= - B). { rewrite Rabs_mult, (Rabs_left1 B) by lra. rewrite <- (Rmult_1_r (- B)) at 2. apply Rmult_le_compat_l; lra. }
  rewrite Rlt_bool_true in E by (apply small_lt; apply Rabs_le_inv in B2; lra). destruct E as (E1 & E2 & _).
  assert (Q1 : Rabs (R32 (fmul x k)) <= K). { unfold fmul. rewrite C1. apply rnd_abs_le. auto. }
  assert (Q2 : Rabs (R32 (fmul b ym)) <= - B). { unfold fmul. rewrite E1. assert (G : - B = R32 (Bopp b)) by (rewrite B2R_Bopp; reflexivity). rewrite G. apply rnd_abs_le. rewrite <- G. auto. }
  assert (F1 : is_finite (fmul x k) = true) by (unfold fmul; rewrite C2, Fx, Fk; auto).
  assert (F2 : is_finite (fmul b ym) = true) by (unfold fmul; rewrite E2, D2, Fy; auto).
  pose proof (Bminus_correct 24 128 _ _ mode_NE (fmul x k) (fmul b ym) F1 F2) as G. change (round_mode mode_NE) with ZnearestE in G.
  set (p := R32 (fmul x k)) in *. set (q := R32 (fmul b ym)) in *.
  apply Rabs_le_inv in Q1. apply Rabs_le_inv in Q2. apply Rabs_le_inv in B1.
  assert (S : Rabs (p - q) <= 1 + / 33554432) by (apply Rabs_le; lra).
  rewrite Rlt_bool_true in G by (apply small_lt; lra). destruct G as (G1 & G2 & _).
  split; [exact G2|]. unfold fsub at 1. rewrite G1.
  assert (T : rnd32 (1 + / 33554432) = 1).
  { apply rnd_tie. }
  apply Rabs_le_inv in S. apply Rabs_le. split.
  - rewrite <- T, <- rnd_opp. apply rnd_mono. lra.
  - rewrite <- T. apply rnd_mono. lra.
Qed.
Lemma lop_all l : forall ym, unit_f ym -> Forall (fun p => is_finite (fst p) = true /\ 0 <= R32 (fst p) <= 1 /\ unit_f (snd p)) l -> Forall unit_f (lop_run ym l).
Proof.
  induction l as [|[k x] l IH]; intros ym Hy H; [constructor|]. inversion H as [|? ? (A & B & C) D]; subst. cbn [fst snd] in *.
  cbn [lop_run]. constructor; [|apply IH; auto]; apply lop_bounded; auto.
Qed.
