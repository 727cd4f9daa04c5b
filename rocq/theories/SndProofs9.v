(** cos~ and osc~: the distance to the cosine. *)
From Verif Require Import SndModel SndSpec SndProofs SndProofs2 SndProofs3 SndProofs4 SndProofs5 SndProofs6 SndProofs7 SndProofs8 Float32Facts.
From Flocq Require Import Core.
From Coq Require Import Reals Lia Lra.
Local Open Scope R_scope.
Definition gap (z : R) := z ^ 5 * (0.0005 - z ^ 2 / 5040 + z ^ 4 / 362880).
Lemma gap_piece a b z : 0 <= a -> a <= z <= b -> 0 <= 0.0005 - a ^ 2 / 5040 + b ^ 4 / 362880 -> gap z <= b ^ 5 * (0.0005 - a ^ 2 / 5040 + b ^ 4 / 362880).
Proof.
  intros A H P. unfold gap.
  assert (z ^ 5 <= b ^ 5) by (apply pow_incr; lra). assert (a ^ 2 <= z ^ 2) by (apply pow_incr; lra). assert (z ^ 4 <= b ^ 4) by (apply pow_incr; lra).
  assert (0 <= z ^ 5) by (apply pow_le; lra).
  apply Rle_trans with (z ^ 5 * (0.0005 - a ^ 2 / 5040 + b ^ 4 / 362880)).
  - apply Rmult_le_compat_l; auto. lra.
  - apply Rmult_le_compat_r; auto.
Qed.
Ltac piece a b := eapply Rle_trans; [apply (gap_piece a b); [lra|lra|simpl; lra]|simpl; lra].
Lemma gap_le z : 0 <= z <= 1.572 -> 0 <= gap z <= 0.0009.
Proof.
  intro H. split.
  - unfold gap. apply Rmult_le_pos; [apply pow_le; lra|]. assert (z ^ 2 <= 1.572 ^ 2) by (apply pow_incr; lra). assert (0 <= z ^ 4) by (apply pow_le; lra).
    simpl (1.572 ^ 2) in *. lra.
  - destruct (Rle_lt_dec z 1.1); [piece 0 1.1|]. destruct (Rle_lt_dec z 1.2); [piece 1.1 1.2|]. destruct (Rle_lt_dec z 1.3); [piece 1.2 1.3|].
    destruct (Rle_lt_dec z 1.35); [piece 1.3 1.35|]. destruct (Rle_lt_dec z 1.4); [piece 1.35 1.4|]. destruct (Rle_lt_dec z 1.45); [piece 1.4 1.45|].
    destruct (Rle_lt_dec z 1.5); [piece 1.45 1.5|]. piece 1.5 1.572.
Qed.
Lemma p5_sin Y : Rabs Y <= 1.572 -> Rabs (p5 Y - sin Y) <= 0.00091.
Proof.
  intro HY. pose proof (sin_near Y HY) as S. pose proof (pow_bound Y _ 3 HY) as B3. pose proof (pow_bound Y _ 5 HY) as B5. 
  assert (G : Rabs (p5 Y - t9 Y) <= 0.000901).
  { assert (E : p5 Y - t9 Y = - gap Y + Y ^ 3 * (/ 6 - 0.166666666666667) - Y ^ 5 * (0.000000000000001 / 3)).
    { unfold p5, t9, gap. unfold Rdiv; lra. }
    assert (K : Rabs (gap Y) <= 0.0009).
    { destruct (Rle_lt_dec 0 Y) as [P|P].
      - rewrite Rabs_pos_eq in HY by auto. destruct (gap_le Y ltac:(lra)). apply Rabs_le. lra.
      - rewrite Rabs_left in HY by auto. destruct (gap_le (- Y) ltac:(lra)).
        replace (gap (- Y)) with (- gap Y) in * by (unfold gap, Rdiv; lra). apply Rabs_le. lra. }
    assert (B3' : 1.572 ^ 3 <= 4) by (simpl; lra). assert (B5' : 1.572 ^ 5 <= 10) by (simpl; lra).
    rewrite E. apply Rabs_le_inv in K. apply Rabs_le_inv in B3. apply Rabs_le_inv in B5. apply Rabs_le. lra. }
  apply Rabs_le_inv in S. apply Rabs_le_inv in G. apply Rabs_le. lra.
Qed.
Section Machine.
Variable M : machine.
Hypothesis OK : machine_ok M.
Notation F := (enc (t_nan M)).
(** The folded phase against the angle. *)
Lemma angle w f c r : near w f (/ 33000000) -> 0 <= f <= 1 -> near c r (/ 4000000) -> 6.283185 <= r <= 6.28319 ->
  let y := folded c w in
  is_finite y = true /\ Rabs (R32 y) <= 1.572 /\ Rabs (sin (R32 y) - cos (2 * PI * f)) <= / 400000.
Proof.
  intros Hw Hf Hc Hr y. destruct (folded_near w f c r Hw Hf Hc ltac:(lra)) as [A B]. fold y in A, B. split; auto.
  assert (T : 0 <= Rabs (f - / 2) <= / 2) by (split; [apply Rabs_pos|apply Rabs_le; lra]). set (t := Rabs (f - / 2) - / 4) in *.
  assert (T' : Rabs t <= / 4) by (apply Rabs_le; unfold t; lra).
  assert (Q : Rabs (t * r) <= / 4 * 6.28319) by (rewrite Rabs_mult; apply Rmult_le_compat; try apply Rabs_pos; auto; apply Rabs_le; lra).
  split. { replace (R32 y) with ((R32 y - t * r) + t * r) by ring. apply Rle_trans with (1 := Rabs_triang _ _). lra. }
  rewrite cos_fold. change (Rabs (f - / 2) - / 4) with t. apply Rle_trans with (1 := sin_lipschitz _ _).
  replace (R32 y - 2 * PI * t) with ((R32 y - t * r) + t * (r - 2 * PI)) by ring. apply Rle_trans with (1 := Rabs_triang _ _).
  assert (Rabs (t * (r - 2 * PI)) <= / 4 * 0.000006). { pose proof pi_bounds. rewrite Rabs_mult. apply Rmult_le_compat; try apply Rabs_pos; auto. apply Rabs_le; lra. }
  lra.
Qed.
Lemma cos_ok x : is_finite x = true -> exists y, shows_sample M cos_sig [x] y /\ within (/ 100000) y (cos (2 * PI * real x)).
Proof.
  intro Fx. eexists. split; [eexists; split; [apply cos_eval; auto|apply vf; auto]|].
  destruct (wrap_ok M OK x Fx) as (w & W1 & W2 & W3 & W4).
  assert (w = fsub x (Bnearbyint mode_DN x)) as <-.
  { destruct W1 as (v & V1 & V2). cbn [map] in V1. rewrite wrap_eval in V1. injection V1 as <-. rewrite !vf in V2 by auto. auto. }
  set (f := fractional (real x)) in *.
  assert (Hf : 0 <= f <= 1). { unfold f, fractional. pose proof (Zfloor_lb (real x)). pose proof (Zfloor_ub (real x)). lra. }
  assert (P : cos (2 * PI * real x) = cos (2 * PI * f)). { unfold f, fractional. rewrite SndProofs7.cos_period. reflexivity. }
  rewrite P. unfold real in *.
  destruct (angle w f (decimal 628319 5) 6.28319) as (A & B & C); auto; [split; auto; lra|apply c_2pi|lra|].
  set (y := folded _ w) in *. destruct (poly9_near M y A B) as [D E]. pose proof (p9_sin y B) as G.
  split; auto. unfold real.
  apply Rabs_le_inv in C. apply Rabs_le_inv in E. apply Rabs_le_inv in G. apply Rabs_le. lra.
Qed.
Lemma osc_ok x : is_finite x = true -> 0 <= real x <= 1 -> exists y, shows_sample M osc_sig [x] y /\ within (/ 1000) y (cos (2 * PI * real x)).
Proof.
  intros Fx Hf. unfold real in *. eexists. split; [eexists; split; [apply osc_eval; auto|apply vf; auto]|].
  destruct (angle x (R32 x) (decimal 6283185307179586 15) 6.283185307179586) as (A & B & C); auto;
    [eapply near_weaken; [apply near_self; auto|lra]|apply o_2pi|lra|].
  set (y := folded _ x) in *. destruct (poly5_near M y A B) as [D E]. pose proof (p5_sin (R32 y) B) as G.
  split; auto. unfold real.
  apply Rabs_le_inv in C. apply Rabs_le_inv in E. apply Rabs_le_inv in G. apply Rabs_le. lra.
Qed.
End Machine.
