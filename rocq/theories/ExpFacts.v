(** Numerical bounds on exp and ln. *)
From Coq Require Import Reals Lra Lia.
From Flocq Require Import Core.
Local Open Scope R_scope.

Lemma exp_series x : infinite_sum (fun i => / INR (fact i) * x ^ i) (exp x).
Proof. unfold exp. destruct (exist_exp x) as [l H]. exact H. Qed.
Lemma exp_lower x n : 0 <= x -> sum_f_R0 (fun i => / INR (fact i) * x ^ i) n <= exp x.
Proof.
  intros H. apply sum_incr; [exact (exp_series x) |]. intros i. apply Rmult_le_pos; [left; apply Rinv_0_lt_compat, INR_fact_lt_0 | apply pow_le, H].
Qed.
Lemma exp_neg_lower x n : 0 <= x <= 1 -> sum_f_R0 (fun i => / INR (fact i) * (- x) ^ i) (S (2 * n)) <= exp (- x).
Proof.
  intros H. set (Un := fun i => / INR (fact i) * x ^ i).
  assert (T : forall i, / INR (fact i) * (- x) ^ i = tg_alt Un i).
  { intros i. unfold tg_alt, Un. replace (- x) with (-1 * x) by ring. rewrite Rpow_mult_distr. ring. }
  rewrite (sum_eq _ (tg_alt Un)) by (intros; apply T).
  apply alternated_series_ineq.
  - intros i. unfold Un. change (fact (S i)) with (S i * fact i)%nat. rewrite mult_INR. rewrite Rinv_mult.
    cbn [pow]. pose proof (INR_fact_lt_0 i) as F. apply Rinv_0_lt_compat in F. pose proof (pow_le x i (proj1 H)) as P.
    assert (I : / INR (S i) <= 1). { rewrite <- Rinv_1. apply Rinv_le_contravar; [lra |]. rewrite S_INR. pose proof (pos_INR i). lra. }
    assert (J : 0 < / INR (S i)) by (apply Rinv_0_lt_compat, lt_0_INR; lia).
    assert (A : / INR (S i) * x <= 1) by nra.
    replace (/ INR (S i) * / INR (fact i) * (x * x ^ i)) with ((/ INR (S i) * x) * (/ INR (fact i) * x ^ i)) by ring.
    assert (0 <= / INR (fact i) * x ^ i) by (apply Rmult_le_pos; lra). nra.
  - unfold Un. intros e He. destruct (cv_speed_pow_fact x e He) as (N & HN). exists N. intros m Hm. specialize (HN m Hm).
    rewrite Rmult_comm. exact HN.
  - pose proof (exp_series (- x)) as S. intros e He. destruct (S e He) as (N & HN). exists N. intros m Hm. specialize (HN m Hm).
    rewrite (sum_eq (tg_alt Un) (fun i => / INR (fact i) * (- x) ^ i)) by (intros; symmetry; apply T). exact HN.
Qed.
(** The same sums without factorials. *)
Fixpoint term (x : R) (n : nat) : R := match n with O => 1 | S k => term x k * x * / IZR (Z.of_nat n) end.
Fixpoint psum (x : R) (n : nat) : R := match n with O => 1 | S k => psum x k + term x n end.
Lemma term_eq x n : term x n = / INR (fact n) * x ^ n.
Proof.
  induction n as [| n IH]; [cbn; lra |]. change (term x (S n)) with (term x n * x * / IZR (Z.of_nat (S n))). rewrite IH, <- INR_IZR_INZ.
  change (fact (S n)) with (S n * fact n)%nat. rewrite mult_INR, Rinv_mult. cbn [pow]. ring.
Qed.
Lemma psum_eq x n : psum x n = sum_f_R0 (fun i => / INR (fact i) * x ^ i) n.
Proof. induction n as [| n IH]; [cbn; lra |]. change (psum x (S n)) with (psum x n + term x (S n)). rewrite IH, term_eq. reflexivity. Qed.
Ltac series := rewrite <- psum_eq; cbn [psum term Nat.mul Nat.add Z.of_nat Pos.of_succ_nat Pos.succ]; lra.
Lemma ln_upper a x n : 0 <= x -> 0 < a -> a <= sum_f_R0 (fun i => / INR (fact i) * x ^ i) n -> ln a <= x.
Proof.
  intros Hx Ha H. rewrite <- (ln_exp x). pose proof (exp_lower x n Hx) as L. destruct (Rle_lt_or_eq_dec a (exp x)) as [D | D]; [lra | left; apply ln_increasing; assumption | rewrite <- D; lra].
Qed.
Lemma ln_lower a x n : 0 <= x <= 1 -> 0 < a -> / a <= sum_f_R0 (fun i => / INR (fact i) * (- x) ^ i) (S (2 * n)) -> x <= ln a.
Proof.
  intros Hx Ha H. pose proof (exp_neg_lower x n Hx) as L. assert (D : / a <= exp (- x)) by lra.
  assert (E : ln (/ a) <= - x).
  { rewrite <- (ln_exp (- x)). assert (0 < / a) by (apply Rinv_0_lt_compat; lra). destruct (Rle_lt_or_eq_dec _ _ D) as [G | G]; [left; apply ln_increasing; assumption | rewrite G; lra]. }
  rewrite ln_Rinv in E by exact Ha. lra.
Qed.
Lemma ln2_bound : 0.69314717 <= ln 2 <= 0.69314719.
Proof. split; [apply ln_lower with (n := 5%nat); [lra | lra |]; series | apply ln_upper with (n := 11%nat); [lra | lra |]; series]. Qed.
Lemma ln125_bound : 0.22314354 <= ln 1.25 <= 0.22314356.
Proof. split; [apply ln_lower with (n := 4%nat); [lra | lra |]; series | apply ln_upper with (n := 8%nat); [lra | lra |]; series]. Qed.
Lemma ln10_bound : 2.30258505 <= ln 10 <= 2.30258514.
Proof.
  replace 10 with (2 * 2 * 2 * 1.25) by lra. rewrite !ln_mult by lra. pose proof ln2_bound. pose proof ln125_bound. lra.
Qed.
(** exp near 0. *)
Lemma exp_near z : Rabs z <= / 2 -> Rabs (exp z - 1) <= 2 * Rabs z.
Proof.
  intros H. pose proof (exp_ineq1_le z) as L. pose proof (exp_ineq1_le (- z)) as M. rewrite exp_Ropp in M. pose proof (exp_pos z) as P.
  assert (Hz : - / 2 <= z <= / 2) by (apply Rabs_le_inv; exact H).
  assert (Q : exp z * (1 - z) <= 1). { apply Rmult_le_reg_r with (/ exp z); [apply Rinv_0_lt_compat, P |]. replace (exp z * (1 - z) * / exp z) with (1 - z) by (field; lra). lra. }
  destruct (Rle_lt_dec 0 z) as [S | S].
  - rewrite (Rabs_pos_eq z) by exact S. apply Rabs_le. split; [lra |]. nra.
  - rewrite (Rabs_left z) by exact S. apply Rabs_le. split; [lra |]. assert (exp z <= 1) by nra. lra.
Qed.
(** An error in the exponent. *)
Lemma Rpower_near c y r d : 0 <= ln c -> Rabs (y - r) <= d -> d * ln c <= / 2 -> Rabs (Rpower c y - Rpower c r) <= 2 * (d * ln c) * Rpower c r.
Proof.
  intros L H D. unfold Rpower. replace (y * ln c) with ((y - r) * ln c + r * ln c) by ring. rewrite exp_plus. set (z := (y - r) * ln c).
  assert (Hz : Rabs z <= d * ln c) by (unfold z; rewrite Rabs_mult, (Rabs_pos_eq (ln c)) by exact L; apply Rmult_le_compat_r; assumption).
  pose proof (exp_near z ltac:(lra)) as E. replace (exp z * exp (r * ln c) - exp (r * ln c)) with ((exp z - 1) * exp (r * ln c)) by ring.
  rewrite Rabs_mult, (Rabs_pos_eq (exp (r * ln c))) by (left; apply exp_pos). apply Rmult_le_compat_r; [left; apply exp_pos | lra].
Qed.
(** The logarithm of a number with a small relative error. *)
Lemma ln_near q r d : 0 < r -> 0 <= d <= / 2 -> r * (1 - d) <= q <= r * (1 + d) -> Rabs (ln q - ln r) <= 2 * d.
Proof.
  intros R D H. assert (Q : 0 < q) by nra. assert (E : ln q - ln r = ln (q / r)). { unfold Rdiv. rewrite ln_mult by (auto using Rinv_0_lt_compat). rewrite ln_Rinv by exact R. ring. }
  rewrite E. set (v := q / r). assert (V : 1 - d <= v <= 1 + d).
  { unfold v, Rdiv. split; apply Rmult_le_reg_r with r; try exact R; rewrite Rmult_assoc, Rinv_l, Rmult_1_r by lra; lra. }
  assert (P : 0 < v) by lra. pose proof (exp_ineq1_le (ln v)) as A. rewrite exp_ln in A by exact P.
  pose proof (exp_ineq1_le (ln (/ v))) as B. rewrite exp_ln in B by (apply Rinv_0_lt_compat, P). rewrite ln_Rinv in B by exact P.
  assert (C : / v <= 1 + 2 * d). { apply Rmult_le_reg_r with v; [exact P |]. rewrite Rinv_l by lra. nra. }
  apply Rabs_le. lra.
Qed.
