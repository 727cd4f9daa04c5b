(** Bounds of the sine. *)
From Flocq Require Import Core.
From Coq Require Import Reals Lia Lra.
Local Open Scope R_scope.
Definition t9 (y : R) := y - y^3 / 6 + y^5 / 120 - y^7 / 5040 + y^9 / 362880.
Lemma fact_Z n : INR (fact n) = IZR (Z.of_nat (fact n)).
Proof. apply INR_IZR_INZ. Qed.
Lemma fact_S n : INR (fact (S n)) = INR (S n) * INR (fact n).
Proof. rewrite fact_simpl, mult_INR. reflexivity. Qed.
Lemma fact_0 : INR (fact 0) = 1. Proof. reflexivity. Qed.
Ltac facts := rewrite ?fact_S, ?fact_0, !S_INR; change (INR 0) with 0.
Lemma sin_pos_bound y : 0 <= y <= 4 -> t9 y - y^11 / 39916800 <= sin y <= t9 y.
Proof.
  intro H. split.
  - destruct (pre_sin_bound y 2 ltac:(lra) ltac:(lra)) as [A _]. apply Rle_trans with (2 := A). right.
    unfold sin_approx, sin_term, t9. cbn [Nat.mul Nat.add sum_f_R0]. facts. field.
  - destruct (pre_sin_bound y 1 ltac:(lra) ltac:(lra)) as [_ A]. apply Rle_trans with (1 := A). right.
    unfold sin_approx, sin_term, t9. cbn [Nat.mul Nat.add sum_f_R0]. facts. field.
Qed.
Lemma pow_le_11 y b : 0 <= y <= b -> y^11 <= b^11.
Proof. intro H. apply pow_incr. auto. Qed.
Lemma t9_odd y : t9 (- y) = - t9 y.
Proof. unfold t9. field. Qed.
Lemma sin_near y : Rabs y <= 1.572 -> Rabs (sin y - t9 y) <= / 270000.
Proof.
  assert (G : forall y, 0 <= y <= 1.572 -> Rabs (sin y - t9 y) <= / 270000).
  { intros z H. destruct (sin_pos_bound z ltac:(lra)) as [A B]. pose proof (pow_le_11 z 1.572 H). assert (1.572 ^ 11 <= 145.3) by (simpl; lra).
    apply Rabs_le. lra. }
  intro H. destruct (Rle_lt_dec 0 y) as [P|P].
  - apply G. rewrite Rabs_pos_eq in H by auto. lra.
  - rewrite Rabs_left in H by auto. specialize (G (- y) ltac:(lra)). rewrite sin_neg, t9_odd in G.
    rewrite <- Rabs_Ropp. replace (- (sin y - t9 y)) with (- sin y - - t9 y) by ring. auto.
Qed.
Lemma sin_abs x : Rabs (sin x) <= Rabs x.
Proof.
  destruct (Rtotal_order x 0) as [L|[->|L]].
  - pose proof (sin_lt_x (- x) ltac:(lra)) as A. rewrite sin_neg in A. rewrite (Rabs_left x L). apply Rabs_le. split; [lra|].
    destruct (Rle_lt_dec (-1) x) as [Q|Q].
    + assert (sin (- x) > 0) by (apply sin_gt_0; [lra|pose proof PI_RGT_0; pose proof PI2_1; lra]). rewrite sin_neg in *. lra.
    + pose proof (SIN_bound x). lra.
  - rewrite sin_0. lra.
  - pose proof (sin_lt_x x L) as A. rewrite (Rabs_pos_eq x) by lra. apply Rabs_le. split; [|lra].
    destruct (Rle_lt_dec x 1) as [Q|Q].
    + assert (sin x > 0) by (apply sin_gt_0; [lra|pose proof PI_RGT_0; pose proof PI2_1; lra]). lra.
    + pose proof (SIN_bound x). lra.
Qed.
Lemma sin_lipschitz a b : Rabs (sin a - sin b) <= Rabs (a - b).
Proof.
  rewrite form4. rewrite !Rabs_mult, (Rabs_pos_eq 2) by lra.
  pose proof (sin_abs ((a - b) / 2)) as S. assert (E : Rabs ((a - b) / 2) = Rabs (a - b) / 2) by (unfold Rdiv; rewrite Rabs_mult, (Rabs_pos_eq (/ 2)) by lra; reflexivity).
  rewrite E in S. pose proof (COS_bound ((a + b) / 2)) as C. assert (Rabs (cos ((a + b) / 2)) <= 1) by (apply Rabs_le; lra).
  apply Rle_trans with (2 * 1 * (Rabs (a - b) / 2)); [|lra]. pose proof (Rabs_pos (cos ((a + b) / 2))). pose proof (Rabs_pos (sin ((a - b) / 2))).
  apply Rmult_le_compat; auto; try lra. 
Qed.
(** Pi. *)
Lemma pi_bounds : 3.141592 <= PI <= 3.141593.
Proof.
  assert (B : 7/8 <= PI/4 <= 1 -> True) by auto.
  (* sin (PI/6) = 1/2 *)
  pose proof PI_RGT_0 as P0. pose proof PI_4 as P4.
  assert (S6 : sin (PI / 6) = / 2) by (rewrite sin_PI6; lra).
  pose proof PI2_3_2 as P32.
  split.
  - destruct (Rle_lt_dec 3.141592 PI) as [L|L]; auto. exfalso.
    assert (I : sin (PI / 6) < sin (3.141592 / 6)) by (apply sin_increasing_1; lra).
    destruct (sin_pos_bound (3.141592 / 6) ltac:(lra)) as [_ U]. unfold t9 in U. simpl in U. lra.
  - destruct (Rle_lt_dec PI 3.141593) as [L|L]; auto. exfalso.
    assert (I : sin (3.141593 / 6) < sin (PI / 6)) by (apply sin_increasing_1; lra).
    destruct (sin_pos_bound (3.141593 / 6) ltac:(lra)) as [U _]. unfold t9 in U. simpl in U. lra.
Qed.
(** cos (2 pi x) from the folded phase. *)
Lemma cos_period x n : cos (2 * PI * (x - IZR n)) = cos (2 * PI * x).
Proof.
  assert (P : forall k y, cos (y - 2 * INR k * PI) = cos y).
  { intros k y. rewrite <- (cos_period (y - 2 * INR k * PI) k). f_equal. ring. }
  destruct (Z_le_gt_dec 0 n) as [L|L].
  - rewrite <- (P (Z.to_nat n) (2 * PI * x)). f_equal. rewrite INR_IZR_INZ, Z2Nat.id by auto. ring.
  - rewrite <- (Rtrigo1.cos_period (2 * PI * x) (Z.to_nat (- n))). f_equal. rewrite INR_IZR_INZ, Z2Nat.id, opp_IZR by lia. ring.
Qed.
Lemma cos_fold f : cos (2 * PI * f) = sin (2 * PI * (Rabs (f - / 2) - / 4)).
Proof.
  replace (2 * PI * (Rabs (f - / 2) - / 4)) with (- (PI / 2 - 2 * PI * Rabs (f - / 2))) by field.
  rewrite sin_neg, sin_shift.
  assert (E : cos (2 * PI * Rabs (f - / 2)) = cos (2 * PI * (f - / 2))).
  { unfold Rabs. destruct (Rcase_abs _); auto. rewrite <- cos_neg. f_equal. ring. }
  rewrite E. replace (2 * PI * (f - / 2)) with (2 * PI * f - PI) by field.
  rewrite cos_minus, cos_PI, sin_PI. ring.
Qed.
