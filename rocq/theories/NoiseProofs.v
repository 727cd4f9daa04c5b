(** The powers of 16807 modulo 2^32. *)
From Coq Require Import ZArith Lia Znumtheory Zpow_facts List.
Import ListNotations.
Open Scope Z_scope.

Lemma odd_not n : Z.odd n = true -> exists k, n = 2 * k + 1.
Proof. intros H. apply Z.odd_spec in H. exact H. Qed.
(** (1 + 2^m q)^t = 1 + 2^m (q t + 2 s) *)
Lemma power_near_one m q t : 1 <= m -> exists s, (1 + 2 ^ m * q) ^ Z.of_nat t = 1 + 2 ^ m * (q * Z.of_nat t + 2 * s).
Proof.
  intros Hm. induction t as [| t (s & IH)].
  - exists 0. rewrite Z.pow_0_r. lia.
  - rewrite Nat2Z.inj_succ, Z.pow_succ_r by lia. rewrite IH.
    exists (s + 2 ^ (m - 1) * q * (q * Z.of_nat t + 2 * s)). replace (2 ^ m) with (2 * 2 ^ (m - 1)).
    + ring.
    + rewrite <- Z.pow_succ_r by lia. f_equal. lia.
Qed.
(** 16807^(2^j) = 1 + 2^(j+3) q with q odd, for j > 0 *)
Lemma power_of_two j : exists q, 16807 ^ (2 ^ Z.of_nat (S j)) = 1 + 2 ^ (Z.of_nat j + 4) * q /\ Z.odd q = true.
Proof.
  induction j as [| j (q & E & O)].
  - exists 17654703. split; reflexivity.
  - replace (2 ^ Z.of_nat (S (S j))) with (2 ^ Z.of_nat (S j) * 2) by (rewrite (Nat2Z.inj_succ (S j)), Z.pow_succ_r by lia; lia).
    rewrite Z.pow_mul_r by (try apply Z.pow_nonneg; lia). rewrite E, Z.pow_2_r.
    exists (q + 2 ^ (Z.of_nat j + 3) * (q * q)). split.
    + replace (Z.of_nat (S j) + 4) with (Z.succ (Z.of_nat j + 4)) by lia. rewrite (Z.pow_succ_r 2 (Z.of_nat j + 4)) by lia.
      replace (Z.of_nat j + 4) with (Z.succ (Z.of_nat j + 3)) by lia. rewrite (Z.pow_succ_r 2 (Z.of_nat j + 3)) by lia. ring.
    + rewrite Z.odd_add, O. replace (Z.of_nat j + 3) with (Z.succ (Z.of_nat j + 2)) by lia. rewrite Z.pow_succ_r by lia.
      rewrite <- Z.mul_assoc, Z.odd_mul. reflexivity.
Qed.
Lemma power_even j t : exists q s, 16807 ^ (2 ^ Z.of_nat (S j) * Z.of_nat t) = 1 + 2 ^ (Z.of_nat j + 4) * (q * Z.of_nat t + 2 * s) /\ Z.odd q = true.
Proof.
  destruct (power_of_two j) as (q & E & O). rewrite Z.pow_mul_r by (try apply Z.pow_nonneg; lia). rewrite E.
  destruct (power_near_one (Z.of_nat j + 4) q t ltac:(lia)) as (s & ->). eauto.
Qed.
Lemma power_odd t : exists s, 16807 ^ (2 * Z.of_nat t + 1) = 3 + 4 * s.
Proof.
  rewrite Z.pow_add_r, Z.pow_1_r, Z.pow_mul_r by lia. change (16807 ^ 2) with (1 + 2 ^ 1 * 141237624).
  destruct (power_near_one 1 141237624 t ltac:(lia)) as (s & ->). exists (16807 * (70618812 * Z.of_nat t + s) + 4201). lia.
Qed.
(** Every positive number is a power of two times an odd number. *)
Lemma two_part n : (0 < n)%nat -> exists j t, Z.of_nat n = 2 ^ Z.of_nat j * (2 * Z.of_nat t + 1).
Proof.
  induction n as [n IH] using lt_wf_ind. intros Hn.
  destruct (Nat.Even_or_Odd n) as [[k ->] | [k ->]].
  - destruct (IH k ltac:(lia) ltac:(lia)) as (j & t & E). exists (S j), t. rewrite Nat2Z.inj_succ, Z.pow_succ_r by lia. lia.
  - exists O, k. rewrite Z.pow_0_r. lia.
Qed.
Lemma divide_odd k q : 0 <= k -> Z.odd q = true -> forall x, (2 ^ k | x * q) -> (2 ^ k | x).
Proof.
  intros Hk O x H. apply Gauss with q; [rewrite Z.mul_comm; exact H |]. apply rel_prime_sym, rel_prime_Zpower_r; [exact Hk |].
  apply rel_prime_sym. apply prime_rel_prime; [exact prime_2 |]. intros [z ->]. rewrite Z.odd_mul, Bool.andb_comm in O. discriminate.
Qed.
Lemma pow2_divide a b : 0 <= a -> 0 <= b -> (2 ^ a | 2 ^ b) -> a <= b.
Proof.
  intros Ha Hb H. destruct (Z_le_gt_dec a b) as [L | G]; [exact L |]. exfalso.
  apply Z.divide_pos_le in H; [| apply Z.pow_pos_nonneg; lia]. pose proof (Z.pow_lt_mono_r 2 b a ltac:(lia) ltac:(lia) ltac:(lia)). lia.
Qed.

(** An odd state comes back after 2^29 steps, not before. *)
Theorem odd_period x n : Z.odd x = true -> (0 < n)%nat -> (4294967296 | x * (16807 ^ Z.of_nat n - 1)) -> (536870912 | Z.of_nat n).
Proof.
  intros O Hn H. change 4294967296 with (2 ^ 32) in H. rewrite Z.mul_comm in H. apply divide_odd in H; [| lia | exact O].
  destruct (two_part n Hn) as (j & t & E). destruct j as [| j].
  - exfalso. rewrite E in H. replace (2 ^ Z.of_nat 0 * (2 * Z.of_nat t + 1)) with (2 * Z.of_nat t + 1) in H by (change (2 ^ Z.of_nat 0) with 1; lia).
    destruct (power_odd t) as (s & Es). rewrite Es in H. destruct H as [z H]. change (2 ^ 32) with 4294967296 in H. lia.
  - rewrite E in H. replace (2 * Z.of_nat t + 1) with (Z.of_nat (2 * t + 1)) in H by lia.
    destruct (power_even j (2 * t + 1)) as (q & s & Es & Oq). rewrite Es in H.
    replace (1 + 2 ^ (Z.of_nat j + 4) * (q * Z.of_nat (2 * t + 1) + 2 * s) - 1) with (2 ^ (Z.of_nat j + 4) * (q * Z.of_nat (2 * t + 1) + 2 * s)) in H by lia.
    apply divide_odd in H; [| lia |].
    + apply pow2_divide in H; [| lia | lia]. rewrite E. apply Z.divide_mul_l. change 536870912 with (2 ^ 29).
      exists (2 ^ (Z.of_nat (S j) - 29)). rewrite <- Z.pow_add_r by lia. f_equal. lia.
    + rewrite (Z.odd_add_mul_2 _ s), Z.odd_mul, Oq. replace (Z.of_nat (2 * t + 1)) with (1 + 2 * Z.of_nat t) by lia. rewrite (Z.odd_add_mul_2 1). reflexivity.
Qed.
(** A multiple of 2^v comes back after 2^(29-v) steps. *)
Theorem even_period x v n : 0 <= v <= 28 -> (2 ^ v | x) -> (2 ^ (29 - v) | Z.of_nat n) -> (4294967296 | x * (16807 ^ Z.of_nat n - 1)).
Proof.
  intros Hv [y ->] [t E].
  assert (0 <= t). { assert (0 < 2 ^ (29 - v)) by (apply Z.pow_pos_nonneg; lia). nia. }
  replace (Z.of_nat n) with (2 ^ Z.of_nat (S (Z.to_nat (28 - v))) * Z.of_nat (Z.to_nat t)).
  2: { rewrite E. rewrite Nat2Z.inj_succ, !Z2Nat.id by lia. replace (Z.succ (28 - v)) with (29 - v) by lia. lia. }
  destruct (power_even (Z.to_nat (28 - v)) (Z.to_nat t)) as (q & s & -> & _). rewrite !Z2Nat.id by lia.
  replace (28 - v + 4) with (32 - v) by lia. change 4294967296 with (2 ^ 32). replace 32 with (v + (32 - v)) at 1 by lia. rewrite Z.pow_add_r by lia.
  exists (y * (q * t + 2 * s)). ring.
Qed.
