(** random. *)
From Verif Require Import PatchProofs PatchProofs2 PatchProofs4 PatchProofs13 PatchSpec4 RandomProofs Float32Facts.
From Coq Require Import Lia Reals Lra.
From Flocq Require Import Core.
Open Scope Z_scope.

Lemma below n : 1 <= n <= 2 ^ 24 -> exists g, generic_format radix2 fexp32 g /\ (IZR n * (1 - / IZR (2 ^ 23)) <= g < IZR n)%R.
Proof.
  intros Hn. destruct (Z.eq_dec n (2 ^ 24)) as [-> | N].
  - exists (IZR (2 ^ 24 - 2)). split.
    + replace (IZR (2 ^ 24 - 2)) with (IZR (2 ^ 23 - 1) * bpow radix2 1)%R by (change (bpow radix2 1) with (IZR 2); rewrite <- mult_IZR; reflexivity).
      apply fmt32; [vm_compute; discriminate | lia].
    + change (2 ^ 24 - 2) with 16777214. change (2 ^ 24) with 16777216. change (2 ^ 23) with 8388608. lra.
  - pose proof (Z.log2_spec n ltac:(lia)) as L. set (k := Z.log2 n) in *.
    assert (K : 0 <= k < 24). { split; [apply Z.log2_nonneg |]. apply Z.log2_lt_pow2; lia. }
    exists (IZR (n * 2 ^ (23 - k) - 1) * bpow radix2 (k - 23))%R.
    assert (B : (IZR (2 ^ (23 - k)) * bpow radix2 (k - 23) = 1)%R).
    { change (2 ^ (23 - k)) with (Zpower radix2 (23 - k)). rewrite IZR_Zpower by lia. rewrite <- bpow_plus. replace (23 - k + (k - 23)) with 0 by lia. reflexivity. }
    assert (P : (0 < bpow radix2 (k - 23))%R) by apply bpow_gt_0.
    split.
    + apply fmt32; [| lia].
      assert (n * 2 ^ (23 - k) < 2 ^ (Z.succ k) * 2 ^ (23 - k)) by (apply Z.mul_lt_mono_pos_r; [apply Z.pow_pos_nonneg; lia | lia]).
      rewrite <- Z.pow_add_r in H by lia. replace (Z.succ k + (23 - k)) with 24 in H by lia.
      assert (0 < n * 2 ^ (23 - k)) by (apply Z.mul_pos_pos; [lia | apply Z.pow_pos_nonneg; lia]). lia.
    + rewrite minus_IZR, mult_IZR, Rmult_minus_distr_r, Rmult_assoc, B, Rmult_1_r, Rmult_1_l. split; [| lra].
      assert (C : (bpow radix2 (k - 23) <= IZR n * / IZR (2 ^ 23))%R).
      { assert (D : (bpow radix2 (k - 23) = IZR (2 ^ k) * / IZR (2 ^ 23))%R).
        { change (2 ^ k) with (Zpower radix2 k). rewrite IZR_Zpower by lia. change (2 ^ 23) with (Zpower radix2 23). rewrite IZR_Zpower by lia.
          rewrite <- bpow_opp, <- bpow_plus. reflexivity. }
        rewrite D. apply Rmult_le_compat_r; [left; apply Rinv_0_lt_compat; apply IZR_lt; lia | apply IZR_le; lia]. }
      lra.
Qed.
Lemma floor_value (x : f32) : R32 (Bnearbyint mode_DN x) = IZR (Zfloor (R32 x)).
Proof.
  destruct (Bnearbyint_correct 24 128 _ mode_DN x) as (A & _). rewrite A. unfold round, F2R, scaled_mantissa, cexp, FIX_exp.
  cbn. rewrite !Rmult_1_r. reflexivity.
Qed.
Lemma random_floor lib s n : 0 <= s < 2 ^ 32 -> 1 <= n <= 2 ^ 24 ->
  exists z, 0 <= z < n /\ unop_value lib FLOOR (fmul (random_value s) (of_int n)) = of_int z.
Proof.
  intros Hs Hn. destruct (value_range s Hs) as (F & V & B). destruct (of_int_exact n ltac:(lia)) as [N NF].
  destruct (below n Hn) as (g & G & G1 & G2).
  assert (V1 : (R32 (random_value s) <= 1 - / IZR (2 ^ 23))%R).
  { rewrite V. assert (s / 2 ^ 9 <= 2 ^ 23 - 1) by (assert (s / 2 ^ 9 < 2 ^ 23) by (apply Z.div_lt_upper_bound; lia); lia).
    apply IZR_le in H. rewrite minus_IZR in H. change (2 ^ 23) with 8388608 in *. lra. }
  assert (P : (0 <= R32 (random_value s) * IZR n <= g)%R).
  { assert (1 <= IZR n)%R by (apply IZR_le; lia). split; [nra |]. apply Rle_trans with (2 := G1). rewrite (Rmult_comm (IZR n)). apply Rmult_le_compat_r; lra. }
  pose proof (Bmult_correct 24 128 _ _ mode_NE (random_value s) (of_int n)) as C. rewrite N in C.
  set (r := round radix2 (SpecFloat.fexp 24 128) (round_mode mode_NE) (R32 (random_value s) * IZR n)) in *.
  assert (R1 : (0 <= r <= g)%R).
  { split; [apply round_ge_generic | apply round_le_generic]; try apply P; auto; try apply fexp_correct; try apply valid_rnd_N; try reflexivity.
    apply generic_format_0. }
  assert (O : Rlt_bool (Rabs r) (bpow radix2 128) = true).
  { apply Rlt_bool_true. rewrite Rabs_pos_eq by apply R1. apply Rle_lt_trans with (IZR n); [lra |]. apply Rle_lt_trans with (IZR (2 ^ 24)); [apply IZR_le; lia |].
    change (IZR (2 ^ 24)) with (bpow radix2 24). apply bpow_lt. lia. }
  rewrite O, F, NF in C. cbn [andb] in C. destruct C as (C1 & C2 & C3). fold (fmul (random_value s) (of_int n)) in C1, C2, C3.
  assert (Sg : Bsign (fmul (random_value s) (of_int n)) = false).
  { rewrite C3 by (destruct (fmul (random_value s) (of_int n)); try discriminate C2; reflexivity).
    assert (S1 : Bsign (of_int n) = false).
    { clear - N Hn. destruct (of_int n) as [sg | sg | | sg m e Hb]; cbn in *; try (exfalso; apply eq_IZR in N; lia).
      destruct sg; [exfalso | reflexivity]. assert (0 < IZR n)%R by (apply IZR_lt; lia). rewrite <- N in H.
      unfold F2R in H. cbn in H. pose proof (bpow_gt_0 radix2 e). assert (IZR (Zneg m) < 0)%R by (apply IZR_lt; reflexivity). nra. }
    assert (S2 : Bsign (random_value s) = false).
    { unfold random_value. rewrite Z.shiftr_div_pow2 by lia. assert (Q : 0 <= s / 2 ^ 9 < 2 ^ 23) by (split; [apply Z.div_pos; lia | apply Z.div_lt_upper_bound; lia]).
      revert V B F. unfold random_value. rewrite Z.shiftr_div_pow2 by lia. intros V B F.
      destruct (Z.eq_dec (s / 2 ^ 9) 0) as [-> | NZ]; [vm_compute; reflexivity |].
      destruct (fmul (of_int (s / 2 ^ 9)) (fdyadic 1 (-23))) as [sg | sg | | sg m e Hb]; try discriminate F.
      - exfalso. cbn in V. assert (0 < IZR (s / 2 ^ 9))%R by (apply IZR_lt; lia). assert (0 < / IZR (2 ^ 23))%R by (apply Rinv_0_lt_compat, IZR_lt; lia).
        change (0 = IZR (s / 2 ^ 9) * / IZR (2 ^ 23))%R in V. nra.
      - destruct sg; [exfalso | reflexivity]. destruct B as [B _]. unfold B2R, F2R in B. cbn in B. pose proof (bpow_gt_0 radix2 e).
        assert (IZR (Zneg m) < 0)%R by (apply IZR_lt; reflexivity). nra. }
    now rewrite S1, S2. }
  cbn [unop_value]. set (x := fmul (random_value s) (of_int n)) in *.
  exists (Zfloor r). assert (Z1 : 0 <= Zfloor r < n).
  { split; [apply Zfloor_lub; apply R1 |]. apply lt_IZR. apply Rle_lt_trans with r; [apply Zfloor_lb | lra]. }
  split; [exact Z1 |].
  destruct (Bnearbyint_correct 24 128 _ mode_DN x) as (D1 & D2 & D3).
  apply of_int_unique; [lia | now rewrite D2 | rewrite floor_value, C1; reflexivity |].
  intros _. rewrite D3; [exact Sg |]. rewrite C2 in D2. destruct (Bnearbyint mode_DN x); try discriminate D2; reflexivity.
Qed.
Definition random_nodes (s n : Z) : list prim :=
  [PPass; PPass; PPass; PBin MULTIPLY (of_int n); PUn FLOOR; PRandom s; PSlice 1 1; PSwitch [LS (T "seed")]].
Inductive random_inv : Z * Z -> world -> Prop := random_i s n o : random_inv (s, n) (mkWorld (random_nodes s n) [] o).
Fixpoint random_out (E : env) (st : Z * Z) (l : list (Z * random_in)) : list out :=
  match l with
  | [] => []
  | (t, RBang) :: l' => let s := random_next (fst st) in
      (t, O, [EF (unop_value (e_lib E) FLOOR (fmul (random_value s) (of_int (snd st))))]) :: random_out E (s, snd st) l'
  | (t, RSeed n) :: l' => random_out E (n, snd st) l'
  | (t, RBound n) :: l' => random_out E (fst st, n) l'
  end.
Lemma to_u32_of_int z : 0 <= z < 2 ^ 24 -> to_u32 (of_int z) = Ok z.
Proof.
  intros H. destruct (of_int_exact z ltac:(lia)) as [R F]. unfold to_u32. rewrite F, trunc_R, R, Ztrunc_IZR.
  replace ((0 <=? z) && (z <? 4294967296)) with true by lia. reflexivity.
Qed.
Lemma seed_switch E x : switch_outlet E [LS (T "seed")] [word "seed"; x] = Ok 0%nat.
Proof. reflexivity. Qed.
Lemma bang_switch E : switch_outlet E [LS (T "seed")] [EB] = Ok 1%nat.
Proof. reflexivity. Qed.
Lemma random_sends E s k l : random_ok l -> sends E (random_pd s (of_int k)) (map random_event l) (random_out E (cRandom_init s, k) l).
Proof.
  intros Hok.
  destruct (simulate E (flatten (random_pd s (of_int k)) 0) (Z * Z) _ random_event (random_out E) random_inv (fun _ => random_ok)) with (s := (cRandom_init s, k)) (l := l) (w := boot (flatten (random_pd s (of_int k)) 0))
    as (w & Hp & Hs); [reflexivity | | exact Hok | exact (random_i _ _ []) | refine (sends_of E _ _ _ w _ Hp Hs); reflexivity].
  intros st [t i] l' w Hk Hi. pose proof (Forall_inv Hk) as Hx. pose proof (Forall_inv_tail Hk) as Hl. cbn [snd] in Hx.
  inversion Hi as [s' n' o]; subst. destruct i as [| n | n]; cbn [random_event random_out fst snd].
  - pose proof (bang_switch E) as Hsw. norm_in Hsw. eexists (_, _), [_], _. split; [apply plays_one; unfold random_nodes; norm; run ltac:(first [rewrite Hsw | consts]) |].
    split; [constructor | split; [reflexivity | split; [reflexivity | exact Hl]]].
  - pose proof (seed_switch E (whole n)) as Hsw. norm_in Hsw. pose proof (to_u32_of_int n Hx) as Hu.
    eexists (_, _), [], _. split; [apply plays_one; unfold random_nodes; norm; run ltac:(first [rewrite Hsw | rewrite Hu | consts]) |].
    split; [constructor | split; [cbn; now rewrite log_nil | split; [reflexivity | exact Hl]]].
  - eexists (_, _), [], _. split; [apply plays_one; unfold random_nodes; norm; run consts |].
    split; [constructor | split; [cbn; now rewrite log_nil | split; [reflexivity | exact Hl]]].
Qed.
Lemma random_out_answers E l : forall s n, 1 <= n <= 2 ^ 24 -> random_ok l -> random_answers n l (random_out E (s, n) l).
Proof.
  induction l as [| [t i] l IH]; intros s n Hn Hk; [reflexivity |]. pose proof (Forall_inv Hk) as Hx. pose proof (Forall_inv_tail Hk) as Hl. cbn [snd] in Hx.
  destruct i as [| m | m]; cbn [random_answers random_out fst snd].
  - destruct (random_floor (e_lib E) (random_next s) n) as (z & Hz & Ez); [pose proof (next_range s); lia | exact Hn |].
    exists z, (random_out E (random_next s, n) l). split; [unfold whole; now rewrite Ez | split; [exact Hz | apply IH; assumption]].
  - apply IH; assumption.
  - apply IH; assumption.
Qed.
Lemma random_seeded E s1 s2 k t n l o : 0 <= n < 2 ^ 24 -> random_ok l ->
  sends E (random_pd s1 (of_int k)) (map random_event ((t, RSeed n) :: l)) o -> sends E (random_pd s2 (of_int k)) (map random_event ((t, RSeed n) :: l)) o.
Proof.
  intros Hn Hl H. assert (Hk : random_ok ((t, RSeed n) :: l)) by (constructor; assumption).
  rewrite (sends_det E _ _ _ _ H (random_sends E s1 k _ Hk)). exact (random_sends E s2 k _ Hk).
Qed.
