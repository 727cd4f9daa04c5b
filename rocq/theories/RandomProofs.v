(** Proofs about the random object. *)
From Verif Require Import RandomModel Float32Facts.
From Coq Require Import Znumtheory Zpow_facts.
From Flocq Require Import Core.
From Coq Require Import Reals Lra.
Local Open Scope Z_scope.

Notation gen := 279470273.
Notation pr := 4294967291.

Lemma next_range s : 0 <= random_next s < pr.
Proof. apply Z.mod_pos_bound. lia. Qed.

Lemma coprime_gen : Z.gcd pr gen = 1. Proof. reflexivity. Qed.
Lemma next_nonzero s : s mod pr <> 0 -> random_next s <> 0.
Proof.
  intros H E. apply H. unfold random_next in E. apply Z.mod_divide in E; [|lia].
  apply Z.mod_divide; [lia|]. apply Z.gauss with gen; [|apply coprime_gen].
  rewrite Z.mul_comm. exact E.
Qed.
Lemma next_mod s : random_next s mod pr = random_next s.
Proof. apply Z.mod_small, next_range. Qed.

Lemma value_range s : 0 <= s < 2 ^ 32 ->
  is_finite (random_value s) = true /\
  R32 (random_value s) = (IZR (s / 2 ^ 9) / IZR (2 ^ 23))%R /\
  (0 <= R32 (random_value s) < 1)%R.
Proof.
  intro H. unfold random_value. rewrite Z.shiftr_div_pow2 by lia.
  assert (B : 0 <= s / 2 ^ 9 < 2 ^ 23).
  { split; [apply Z.div_pos; lia|]. apply Z.div_lt_upper_bound; lia. }
  destruct (of_int_exact (s / 2 ^ 9)) as [A1 A2]; [lia|].
  destruct (dyadic_exact 1 (-23)) as [B1 B2]; [lia|lia|].
  destruct (fmul_exact (of_int (s / 2 ^ 9)) (fdyadic 1 (-23)) (s / 2 ^ 9) (-23)) as [C1 C2]; auto; try lia.
  { rewrite A1, B1. lra. }
  assert (E : R32 (fmul (of_int (s / 2 ^ 9)) (fdyadic 1 (-23))) = (IZR (s / 2 ^ 9) / IZR (2 ^ 23))%R).
  { rewrite C1. unfold Rdiv. f_equal. }
  split; [exact C2|]. split; [exact E|]. rewrite E.
  destruct B as [B3 B4]. apply IZR_le in B3. apply IZR_lt in B4.
  assert (P : (0 < IZR (2 ^ 23))%R) by (apply IZR_lt; lia).
  split.
  - apply Rmult_le_pos; [exact B3|]. left. apply Rinv_0_lt_compat, P.
  - apply Rmult_lt_reg_r with (IZR (2 ^ 23)); [exact P|]. unfold Rdiv.
    rewrite Rmult_assoc, Rinv_l, Rmult_1_r, Rmult_1_l by lra. exact B4.
Qed.

Lemma init_range seed : 0 <= cRandom_init seed < 2 ^ 32.
Proof. unfold cRandom_init. destruct (seed =? 0); [lia|]. apply u32_range. Qed.

Lemma to_u32_range f s : to_u32 f = Ok s -> 0 <= s < 2 ^ 32.
Proof.
  unfold to_u32. destruct (is_finite f); [|discriminate].
  destruct (Z.leb_spec 0 (Btrunc f)); [|discriminate].
  destruct (Z.ltb_spec (Btrunc f) 4294967296); [|discriminate]. cbn. intro E. injection E as <-. lia.
Qed.

Lemma run_outputs ops : forall s s' out, 0 <= s < 2 ^ 32 -> random_run s ops = Ok (s', out) ->
  forall x, In x out -> is_finite x = true /\ (0 <= R32 x < 1)%R.
Proof.
  induction ops as [|o ops IH]; intros s s' out H E x I; cbn [random_run] in E.
  { injection E as E1 E2. subst out. destruct I. }
  destruct o as [|f|]; cbn [cRandom_onMessage] in E.
  - cbn [obind] in E. destruct (random_run (random_next s) ops) as [[s2 out2]| |] eqn:R; try discriminate.
    cbn [obind] in E. injection E as E1 E2. subst out. pose proof (next_range s) as N.
    cbn [app] in I. destruct I as [I|I].
    + subst x. destruct (value_range (random_next s)) as (A & _ & B); [lia|]. auto.
    + apply (IH (random_next s) s2 out2); [lia|exact R|exact I].
  - destruct (to_u32 f) as [s1| |] eqn:F; try discriminate. cbn [obind] in E.
    destruct (random_run s1 ops) as [[s2 out2]| |] eqn:R; try discriminate. cbn [obind app] in E.
    injection E as E1 E2. subst out. apply (IH s1 s2 out2); [eapply to_u32_range; eauto|exact R|exact I].
  - cbn [obind] in E. destruct (random_run s ops) as [[s2 out2]| |] eqn:R; try discriminate.
    cbn [obind app] in E. injection E as E1 E2. subst out. apply (IH s s2 out2); [lia|exact R|exact I].
Qed.

Lemma iter_S {A} (f : A -> A) n s : Nat.iter (S n) f s = f (Nat.iter n f s).
Proof. reflexivity. Qed.
Lemma iter_r {A} (f : A -> A) n s : Nat.iter (S n) f s = Nat.iter n f (f s).
Proof. induction n as [|n IH]; [reflexivity|]. rewrite iter_S, IH, iter_S. reflexivity. Qed.
(** The state after [n] bangs. *)
Lemma run_bangs n : forall s, random_run s (repeat Bang n) =
  Ok (Nat.iter n random_next s, map (fun k => random_value (Nat.iter k random_next s)) (seq 1 n)).
Proof.
  induction n as [|n IH]; intro s; [reflexivity|].
  cbn [repeat random_run cRandom_onMessage obind]. rewrite IH. cbn [obind app].
  assert (SS : forall k, Nat.iter k random_next (random_next s) = Nat.iter (S k) random_next s).
  { intro k. symmetry. apply iter_r. }
  rewrite SS. f_equal. f_equal. change (seq 1 (S n)) with (1%nat :: seq 2 n). cbn [map]. f_equal.
  rewrite <- (seq_shift n 1), map_map. apply map_ext. intro k. rewrite SS. reflexivity.
Qed.
Lemma iter_nonzero n : forall s, s mod pr <> 0 -> Nat.iter n random_next s mod pr <> 0.
Proof.
  induction n as [|n IH]; intros s H; [auto|].
  rewrite iter_S, next_mod. apply next_nonzero. auto.
Qed.
Lemma iter_closed n s : (0 < n)%nat -> Nat.iter n random_next s = (s * gen ^ Z.of_nat n) mod pr.
Proof.
  destruct n as [|n]; [lia|]. intros _. induction n as [|n IH].
  - cbn [Nat.iter]. unfold random_next. reflexivity.
  - rewrite iter_S, IH. unfold random_next.
    rewrite Z.mul_mod_idemp_l by lia. f_equal.
    replace (Z.of_nat (S (S n))) with (Z.succ (Z.of_nat (S n))) by lia. rewrite Z.pow_succ_r by lia. ring.
Qed.
Lemma iter_zero n s : s mod pr = 0 -> (0 < n)%nat -> Nat.iter n random_next s = 0.
Proof.
  intros H Hn. rewrite iter_closed by auto. rewrite Z.mul_mod, H by lia. reflexivity.
Qed.

(** *** Period *)
Fixpoint nodiv (p d : Z) (k : nat) : bool :=
  match k with O => true | S k' => negb (p mod d =? 0) && nodiv p (d + 1) k' end.
Lemma nodiv_spec p k : forall d x, nodiv p d k = true -> 0 < d -> d <= x < d + Z.of_nat k -> ~ (x | p).
Proof.
  induction k as [|k IH]; intros d x H Hd Hx; [lia|]. cbn [nodiv] in H.
  apply andb_true_iff in H. destruct H as [H1 H2].
  destruct (Z.eq_dec x d) as [->|n].
  - intro D. apply Z.mod_divide in D; [|lia]. rewrite D in H1. discriminate.
  - apply (IH (d + 1)); auto; lia.
Qed.
Lemma prime_by_trial p k : 1 < p -> nodiv p 2 k = true -> p < (Z.of_nat k + 2) * (Z.of_nat k + 2) -> prime p.
Proof.
  intros Hp Hn Hk. apply prime_alt. split; [lia|]. intros n Hn1 D.
  destruct (Z_lt_le_dec n (Z.of_nat k + 2)) as [L|L].
  - apply (nodiv_spec p k 2 n Hn); [lia|lia|auto].
  - destruct D as [m Hm]. assert (0 < m) by nia. assert (m <> 1) by nia.
    apply (nodiv_spec p k 2 m Hn); [lia|split; [lia|nia]|]. exists n. lia.
Qed.
Lemma prime_pr : prime pr.
Proof.
  apply (prime_by_trial pr (Z.to_nat 65535)); [lia|vm_compute; reflexivity|].
  rewrite Z2Nat.id by lia. lia.
Qed.
Lemma prime_big : prime 22605091.
Proof.
  apply (prime_by_trial 22605091 (Z.to_nat 4800)); [lia|vm_compute; reflexivity|].
  rewrite Z2Nat.id by lia. lia.
Qed.
Lemma prime_19 : prime 19.
Proof. apply (prime_by_trial 19 5); [lia|reflexivity|lia]. Qed.
Lemma prime_5 : prime 5.
Proof. apply (prime_by_trial 5 3); [lia|reflexivity|lia]. Qed.

Lemma divisor_factor e : 1 < e -> (e | 4294967290) ->
  (2 | e) \/ (5 | e) \/ (19 | e) \/ (22605091 | e).
Proof.
  intros He D.
  destruct (Zdivide_dec 2 e) as [|N2]; [auto|]. destruct (Zdivide_dec 5 e) as [|N5]; [auto|].
  destruct (Zdivide_dec 19 e) as [|N19]; [auto|]. destruct (Zdivide_dec 22605091 e) as [|NB]; [auto|]. exfalso.
  assert (C : forall q n, prime q -> ~ (q | e) -> (e | q * n) -> (e | n)).
  { intros q n Pq Nq Dq. apply Gauss with q; [exact Dq|]. apply rel_prime_sym, prime_rel_prime; auto. }
  assert (D1 : (e | 1)).
  { apply (C 22605091); [apply prime_big|auto|]. apply (C 19); [apply prime_19|auto|].
    apply (C 5); [apply prime_5|auto|]. apply (C 2); [apply prime_2|auto|]. exact D. }
  apply Z.divide_1_r_nonneg in D1; lia.
Qed.

Definition unit_at (k : Z) : Prop := 0 <= k /\ gen ^ k mod pr = 1.
Lemma unit_add a b : unit_at a -> unit_at b -> unit_at (a + b).
Proof.
  intros [A1 A2] [B1 B2]. split; [lia|]. rewrite Z.pow_add_r, Z.mul_mod, A2, B2 by lia. reflexivity.
Qed.
Lemma unit_mul a k : 0 <= k -> unit_at a -> unit_at (a * k).
Proof.
  intros Hk A. pattern k. apply natlike_ind; auto.
  - rewrite Z.mul_0_r. split; [lia|reflexivity].
  - intros x Hx IH. replace (a * Z.succ x) with (a * x + a) by lia. apply unit_add; auto.
Qed.
Lemma unit_sub a b : unit_at (a + b) -> unit_at a -> 0 <= b -> unit_at b.
Proof.
  intros [A1 A2] [B1 B2] Hb. split; [auto|]. rewrite Z.pow_add_r, Z.mul_mod, B2, Z.mul_1_l in A2 by lia.
  rewrite Z.mod_mod in A2 by lia. exact A2.
Qed.
Lemma unit_full : unit_at 4294967290.
Proof. split; [lia|]. rewrite <- (Zpow_mod_correct gen 4294967290 pr) by discriminate. vm_compute. reflexivity. Qed.
Lemma not_unit k : Zpow_mod gen k pr <> 1 -> ~ unit_at k.
Proof. intros H [_ E]. apply H. rewrite Zpow_mod_correct by discriminate. exact E. Qed.
Lemma nu1 : ~ unit_at 2147483645. Proof. apply not_unit. vm_compute. discriminate. Qed.
Lemma nu2 : ~ unit_at 858993458. Proof. apply not_unit. vm_compute. discriminate. Qed.
Lemma nu3 : ~ unit_at 226050910. Proof. apply not_unit. vm_compute. discriminate. Qed.
Lemma nu4 : ~ unit_at 190. Proof. apply not_unit. vm_compute. discriminate. Qed.

Lemma order_exact k : 0 < k < 4294967290 -> ~ unit_at k.
Proof.
  intros Hk. pattern k. revert k Hk.
  assert (W : forall n k, k < Z.of_nat n -> 0 < k < 4294967290 -> ~ unit_at k).
  2:{ intros k Hk. apply (W (S (Z.to_nat k))); lia. }
  induction n as [|n IH]; intros k Hn Hk U; [lia|].
  set (r := 4294967290 mod k).
  assert (Ur : unit_at r).
  { apply unit_sub with (k * (4294967290 / k)).
    - unfold r. rewrite <- Z.div_mod by lia. apply unit_full.
    - apply unit_mul; [apply Z.div_pos; lia|auto].
    - unfold r. apply Z.mod_pos_bound. lia. }
  assert (Hr : 0 <= r < k) by (unfold r; apply Z.mod_pos_bound; lia).
  destruct (Z.eq_dec r 0) as [R0|R0].
  2:{ apply (IH r); [lia|lia|exact Ur]. }
  assert (D : 4294967290 = k * (4294967290 / k)).
  { rewrite (Z.div_mod 4294967290 k) at 1 by lia. fold r. lia. }
  set (e := 4294967290 / k) in *.
  assert (He : 1 < e).
  { assert (0 < e) by nia. destruct (Z.eq_dec e 1) as [E1|]; [rewrite E1 in D; lia|lia]. }
  assert (F : forall q f, 4294967290 = q * f -> 0 < q -> 0 < f -> ~ unit_at f -> ~ (q | e)).
  { intros q f Hqf Hq Hf Hc [m Hm].
    assert (Ef : k * m = f /\ 0 <= m) by (clear - Hm D Hqf Hq Hf He Hk; rewrite Hm in D; nia).
    destruct Ef as [Ef Em]. apply Hc. rewrite <- Ef. apply unit_mul; auto. }
  destruct (divisor_factor e He) as [H|[H|[H|H]]].
  - exists k. exact D.
  - apply (F 2 2147483645); [reflexivity|reflexivity|reflexivity|apply nu1|exact H].
  - apply (F 5 858993458); [reflexivity|reflexivity|reflexivity|apply nu2|exact H].
  - apply (F 19 226050910); [reflexivity|reflexivity|reflexivity|apply nu3|exact H].
  - apply (F 22605091 190); [reflexivity|reflexivity|reflexivity|apply nu4|exact H].
Qed.

Lemma period_exact s n : 0 < s < pr -> (0 < n)%nat ->
  (Nat.iter n random_next s = s <-> (4294967290 | Z.of_nat n)).
Proof.
  intros Hs Hn. rewrite iter_closed by auto. split.
  - intro E.
    assert (U : unit_at (Z.of_nat n)).
    { split; [lia|]. assert (D : (pr | s * (gen ^ Z.of_nat n - 1))).
      { apply Z.mod_divide; [lia|]. replace (s * (gen ^ Z.of_nat n - 1)) with (s * gen ^ Z.of_nat n - s) by ring.
        rewrite Zminus_mod, E, (Z.mod_small s) by lia. rewrite Z.sub_diag. reflexivity. }
      apply Gauss in D.
      - apply Z.mod_divide in D; [|lia]. rewrite <- Z.mod_1_l with pr by lia.
        replace (gen ^ Z.of_nat n) with ((gen ^ Z.of_nat n - 1) + 1) by ring.
        rewrite Z.add_mod, D, Z.add_0_l, Z.mod_mod by lia. reflexivity.
      - apply prime_rel_prime; [apply prime_pr|]. intro Dv. apply Z.divide_pos_le in Dv; lia. }
    apply Z.mod_divide; [lia|]. set (r := Z.of_nat n mod 4294967290).
    assert (Hr : 0 <= r < 4294967290) by (apply Z.mod_pos_bound; lia).
    destruct (Z.eq_dec r 0) as [|R0]; [auto|]. exfalso. apply (order_exact r); [lia|].
    apply unit_sub with (4294967290 * (Z.of_nat n / 4294967290)).
    + unfold r. rewrite <- Z.div_mod by lia. exact U.
    + apply unit_mul; [apply Z.div_pos; lia|apply unit_full].
    + lia.
  - intros [m Hm]. assert (U : unit_at (Z.of_nat n)).
    { rewrite Hm, Z.mul_comm. apply unit_mul; [nia|apply unit_full]. }
    destruct U as [_ U]. rewrite Z.mul_mod, U, Z.mul_1_r, Z.mod_mod by lia. apply Z.mod_small. lia.
Qed.
