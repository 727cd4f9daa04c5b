(** A correctly rounded C library meets the accuracy that is assumed; a list at float. *)
From Verif Require Import SndModel SndSpec SndProofs SndProofs2 SndProofs3 SndProofs4 SndProofs5 SndProofs6 SndProofs10 SndProofs11 Float32Facts Float64Facts ExpFacts.
From Verif Require Import PatchSpec4 PatchProofs PatchProofs2 PatchProofs4 PatchProofs13 PatchProofs15.
From Flocq Require Import Core Relative.
From Coq Require Import Reals Lia Lra List.
Import ListNotations.
Local Open Scope R_scope.

(** The float nearest to a real number. *)
Definition nearest (r : R) : f32 := binary_normalize 24 128 eq_refl eq_refl mode_NE (ZnearestE (scaled_mantissa radix2 fexp32 r)) (cexp radix2 fexp32 r) false.
Lemma nearest_R r : Rabs (rnd32 r) < bpow radix2 128 -> R32 (nearest r) = rnd32 r /\ is_finite (nearest r) = true.
Proof.
  intros H. pose proof (binary_normalize_correct 24 128 eq_refl eq_refl mode_NE (ZnearestE (scaled_mantissa radix2 fexp32 r)) (cexp radix2 fexp32 r) false) as C.
  change (F2R (Float radix2 (ZnearestE (scaled_mantissa radix2 fexp32 r)) (cexp radix2 fexp32 r))) with (rnd32 r) in C.
  change (round_mode mode_NE) with ZnearestE in C. cbv zeta in C.
  assert (I : rnd32 (rnd32 r) = rnd32 r) by (apply round_generic; [apply valid_rnd_N | apply generic_format_round; [apply fexp_correct; reflexivity | apply valid_rnd_N]]).
  rewrite I in C.
  rewrite Rlt_bool_true in C by exact H. destruct C as (A & B & _). split; assumption.
Qed.
Definition exact_env (r : Z) : env :=
  mkEnv (fun _ x => nearest (ln (R32 x))) (fun x y => nearest (Rpower (R32 x) (R32 y))) (fun x _ => x) 2143289344 (d_of_int r).
Lemma exact_log r : log_accurate (exact_env r).
Proof.
  intros x F H. cbn [e_lib exact_env]. pose proof (ln_range x F H) as B. unfold val in *. assert (A : Rabs (ln (R32 x)) <= 104) by (apply Rabs_le; lra).
  destruct (rnd_small (ln (R32 x)) ltac:(lra)) as [N L]. destruct (nearest_R _ L) as [Q G]. split; [exact G |]. rewrite Q. unfold u in N. pose proof (Rabs_pos (ln (R32 x))). lra.
Qed.
Lemma exact_pow r : pow_accurate (exact_env r).
Proof.
  intros x y Fx Fy Hx [L U]. cbn [e_pow exact_env]. unfold val in *. set (p := Rpower (R32 x) (R32 y)) in *. assert (P : 0 < p) by apply exp_pos.
  destruct (relative_error_N_FLT_ex radix2 (-149) 24 eq_refl (fun z => negb (Z.even z)) p) as (e & He & E).
  { rewrite Rabs_pos_eq by lra. apply Rle_trans with (2 := L). apply bpow_le. lia. }
  change (round radix2 (FLT_exp (-149) 24) (Znearest (fun z => negb (Z.even z))) p) with (rnd32 p) in E.
  assert (Q : / 2 * bpow radix2 (- (24) + 1) = / 16777216) by (cbn; lra). rewrite Q in He. pose proof (Rabs_le_inv _ _ He) as He'.
  assert (D : Rabs (rnd32 p - p) <= / 1000000 * p).
  { rewrite E. replace (p * (1 + e) - p) with (p * e) by ring. rewrite Rabs_mult, Rabs_pos_eq by lra. rewrite Rmult_comm. apply Rmult_le_compat_r; lra. }
  destruct (nearest_R p) as [A B].
  - apply Rle_lt_trans with (2 * bpow radix2 120).
    + apply Rabs_le_inv in D. apply Rabs_le. lra.
    + change (2 * bpow radix2 120) with (bpow radix2 1 * bpow radix2 120). rewrite <- bpow_plus. apply bpow_lt. lia.
  - split; [exact B |]. rewrite A. exact D.
Qed.
(** float sends the whole list. *)
Lemma f_list E k t x y : sends E (f_pd (EF k)) [In_ t 0 [EF x; EF y]] [(t, O, [EF x; EF y])].
Proof.
  eapply sends_of; [reflexivity | eapply plays_in; [norm; run consts | apply plays_nil] | reflexivity].
Qed.
