(** ceilToNearestBlock in binary32. *)
From Coq Require Import Reals Lra.
From Flocq Require Import Core.
From Verif Require Import Float32 Float32Facts PhasorProofs EnvModel EnvSpec EnvProofs.

Lemma fdiv_exact x y m e : is_finite x = true -> is_finite y = true -> R32 y <> 0%R ->
  (R32 x / R32 y = IZR m * bpow radix2 e)%R -> Z.abs m <= 2 ^ 24 -> -149 <= e <= 100 ->
  R32 (fdiv x y) = (IZR m * bpow radix2 e)%R /\ is_finite (fdiv x y) = true.
Proof.
  intros Fx Fy Hy E Hm He. unfold fdiv. pose proof (Bdiv_correct 24 128 _ _ mode_NE x y Hy) as H.
  rewrite E in H. rewrite round_generic in H; [|apply valid_rnd_N|apply (fmt32 m e); auto; lia].
  rewrite Rlt_bool_true in H; [|apply (small_bpow m e); auto; lia].
  destruct H as (A & B & _). rewrite Fx in B. split; auto.
Qed.
(** An int converted to float: an integer again, with 24 significant bits. *)
Definition rint (x : Z) (v : Z) : Prop := IZR v = round radix2 fexp32 (round_mode mode_NE) (IZR x).
Lemma of_int_big x : 1 <= x <= 536870912 -> exists v m e, R32 (of_int x) = IZR v /\ is_finite (of_int x) = true /\ v = m * 2 ^ e /\ 0 <= e <= 100 /\ Z.abs m <= 2 ^ 24 /\
  1 <= v <= 536870912 /\ (x <= 16777216 -> v = x) /\ rint x v.
Proof.
  intros H. destruct (Z.le_gt_cases x 16777216) as [L|L].
  - destruct (of_int_exact x) as (E & F); [change (2 ^ 24) with 16777216; lia|]. exists x, x, 0. split; [exact E|]. split; [exact F|]. split; [lia|]. split; [lia|]. split; [change (2 ^ 24) with 16777216; lia|]. split; [lia|]. split; [reflexivity|].
    unfold rint. symmetry. apply round_generic; [apply valid_rnd_round_mode|]. apply fmt_Z. lia.
  - unfold of_int, fdyadic. pose proof (binary_normalize_correct 24 128 _ _ mode_NE x 0 false) as C. cbv zeta in C.
    set (r := round radix2 fexp32 (round_mode mode_NE) (F2R (Float radix2 x 0))) in *.
    assert (ER : F2R (Float radix2 x 0) = IZR x) by (unfold F2R; cbn; lra).
    assert (V : Valid_rnd (round_mode mode_NE)) by apply valid_rnd_round_mode.
    assert (G : forall m e, Z.abs m <= 2 ^ 24 -> -149 <= e -> round radix2 fexp32 (round_mode mode_NE) (IZR m * bpow radix2 e) = (IZR m * bpow radix2 e)%R).
    { intros m e Hm He. apply round_generic; [exact V|]. apply fmt32; assumption. }
    assert (Lo : (IZR 16777216 <= r)%R).
    { unfold r. rewrite ER. replace (IZR 16777216) with (IZR 1 * bpow radix2 24)%R by (cbn; lra). rewrite <- (G 1 24) by (cbn; lia). apply round_le; [apply fexp_correct; reflexivity|exact V|].
      replace (IZR 1 * bpow radix2 24)%R with (IZR 16777216) by (cbn; lra). apply IZR_le. lia. }
    assert (Hi : (r <= IZR 536870912)%R).
    { unfold r. rewrite ER. replace (IZR 536870912) with (IZR 1 * bpow radix2 29)%R by (cbn; lra). rewrite <- (G 1 29) by (cbn; lia). apply round_le; [apply fexp_correct; reflexivity|exact V|].
      replace (IZR 1 * bpow radix2 29)%R with (IZR 536870912) by (cbn; lra). apply IZR_le. lia. }
    rewrite Rlt_bool_true in C.
    2:{ rewrite Rabs_pos_eq; [|apply Rle_trans with (IZR 16777216); [apply IZR_le; lia|exact Lo]]. apply Rle_lt_trans with (bpow radix2 29); [replace (bpow radix2 29) with (IZR 536870912) by (cbn; lra); exact Hi|apply bpow_lt; lia]. }
    destruct C as (CR & CF & _). set (f := binary_normalize 24 128 _ _ mode_NE x 0 false) in *.
    destruct (repr f CF) as (m & e & Em & Bm & Be).
    assert (He : 1 <= e).
    { destruct (Z.le_gt_cases e 0) as [Q|Q]; [|lia]. exfalso. rewrite <- CR, Em in Lo.
      assert (B1 : (IZR m * bpow radix2 e < IZR 16777216)%R); [|lra].
      assert (P0 : (0 < bpow radix2 e)%R) by apply bpow_gt_0. assert (P1 : (bpow radix2 e <= 1)%R) by (change 1%R with (bpow radix2 0); apply bpow_le; lia).
      destruct (Z.le_gt_cases m 0) as [M0|M0].
      - apply Rle_lt_trans with 0%R; [|apply IZR_lt; lia]. apply IZR_le in M0. change 0%R with (IZR 0) in *. nra.
      - assert (M1 : (IZR m < IZR 16777216)%R) by (apply IZR_lt; lia). assert (M2 : (0 < IZR m)%R) by (apply IZR_lt; lia). nra. }
    exists (m * 2 ^ e), m, e. assert (EV : R32 f = IZR (m * 2 ^ e)) by (rewrite Em; apply bpow_m; lia). split; [exact EV|]. split; [exact CF|]. split; [reflexivity|].
    rewrite EV in CR. rewrite <- CR in Lo, Hi. apply le_IZR in Lo, Hi.
    assert (E100 : e <= 100).
    { destruct (Z.le_gt_cases e 100) as [Q|Q]; [exact Q|]. exfalso. assert (2 ^ 100 <= 2 ^ e) by (apply Z.pow_le_mono_r; lia).
      assert (1 <= m) by (destruct (Z.le_gt_cases m 0); [assert (0 < 2 ^ e) by (apply Z.pow_pos_nonneg; lia); nia|lia]). change (2 ^ 100) with 1267650600228229401496703205376 in *. nia. }
    split; [lia|]. split; [change (2 ^ 24) with 16777216; lia|]. split; [lia|]. split; [lia|]. unfold rint. rewrite CR. unfold r. rewrite ER. reflexivity.
Qed.
Lemma rint_mono x v y : rint x v -> x <= y -> generic_format radix2 fexp32 (IZR y) -> v <= y.
Proof.
  intros H L G. apply le_IZR. rewrite H. rewrite <- (round_generic radix2 fexp32 (round_mode mode_NE) (IZR y) G). apply round_le; [apply fexp_correct; reflexivity|apply valid_rnd_round_mode|]. apply IZR_le. exact L.
Qed.

Lemma ceil_block_ok b x : 1 <= x <= 536870912 -> exists v, ceil_block x (lanes b) = Ok (lanes b * ((v + lanes b - 1) / lanes b)) /\ 1 <= v <= 536870912 /\ (x <= 16777216 -> v = x) /\ rint x v /\
  generic_format radix2 fexp32 (IZR (lanes b * ((v + lanes b - 1) / lanes b))).
Proof.
  intros H. destruct (of_int_big x H) as (v & m & e & E1 & F1 & Ev & He & Hm & Hv & Hx & Hr). exists v.
  pose proof (lanes_pos b) as LP. assert (HK : exists k, 0 <= k <= 3 /\ lanes b = 2 ^ k) by (destruct b; [exists 0|exists 2|exists 2|exists 3]; cbn; lia).
  destruct HK as (k & Hk & EN). assert (LB : lanes b <= 8) by (destruct b; cbn; lia).
  destruct (of_int_exact (lanes b)) as (E2 & F2); [change (2 ^ 24) with 16777216; lia|].
  assert (BK : IZR (lanes b) = bpow radix2 k) by (rewrite EN; apply (IZR_Zpower radix2); lia).
  assert (N0 : IZR (lanes b) <> 0%R) by (apply not_0_IZR; lia).
  destruct (fdiv_exact (of_int x) (of_int (lanes b)) m (e - k) F1 F2) as (E3 & F3).
  - rewrite E2. exact N0.
  - rewrite E1, E2, Ev, BK. rewrite <- (bpow_m m e) by lia. unfold Zminus. rewrite bpow_plus, bpow_opp. unfold Rdiv. ring.
  - exact Hm.
  - lia.
  - assert (EQ : R32 (fdiv (of_int x) (of_int (lanes b))) = (IZR v / IZR (lanes b))%R).
    { rewrite E3, Ev, <- (bpow_m m e), BK by lia. unfold Zminus. rewrite bpow_plus, bpow_opp. unfold Rdiv. ring. }
    set (M := (v + lanes b - 1) / lanes b).
    assert (EC : Zceil (IZR v / IZR (lanes b)) = M).
    { unfold Zceil. replace (- (IZR v / IZR (lanes b)))%R with (IZR (- v) / IZR (lanes b))%R by (rewrite opp_IZR; field; exact N0). rewrite Zfloor_div by lia. unfold M.
      destruct b; cbn [lanes]; Z.to_euclidean_division_equations; lia. }
    destruct (Bnearbyint_correct 24 128 _ mode_UP (fdiv (of_int x) (of_int (lanes b)))) as (E4 & F4 & _).
    assert (E5 : R32 (Bnearbyint mode_UP (fdiv (of_int x) (of_int (lanes b)))) = IZR M).
    { rewrite E4, EQ. unfold round, F2R, scaled_mantissa, cexp, FIX_exp. cbn [Fnum Fexp round_mode Z.opp bpow]. rewrite !Rmult_1_r, EC. reflexivity. }
    rewrite F3 in F4.
    assert (HR : exists m' e', (IZR M * IZR (lanes b) = IZR m' * bpow radix2 e')%R /\ Z.abs m' <= 2 ^ 24 /\ 0 <= e' <= 100).
    { destruct (Z.le_gt_cases k e) as [Q|Q].
      - exists m, e. split; [|split; [exact Hm|lia]]. rewrite (bpow_m m e) by lia. rewrite <- Ev, <- mult_IZR. f_equal. unfold M.
        assert (v mod lanes b = 0). { rewrite Ev, EN. replace e with (e - k + k) by lia. rewrite Z.pow_add_r by lia. rewrite Z.mul_assoc. apply Z_mod_mult. }
        destruct b; cbn [lanes] in *; Z.to_euclidean_division_equations; lia.
      - exists M, k. split; [rewrite BK; reflexivity|]. split; [|lia]. change (2 ^ 24) with 16777216 in *.
        assert (VB : v * 2 <= 16777216 * lanes b).
        { rewrite Ev, EN. assert (2 ^ e * 2 <= 2 ^ k) by (replace (2 ^ e * 2) with (2 ^ (Z.succ e)) by (rewrite Z.pow_succ_r by lia; lia); apply Z.pow_le_mono_r; lia). assert (0 < 2 ^ e) by (apply Z.pow_pos_nonneg; lia).
          assert (0 < m) by nia. nia. }
        unfold M. destruct b; cbn [lanes] in *; Z.to_euclidean_division_equations; lia. }
    destruct HR as (m' & e' & ER & Hm' & He').
    destruct (fmul_exact (Bnearbyint mode_UP (fdiv (of_int x) (of_int (lanes b)))) (of_int (lanes b)) m' e' F4 F2) as (E6 & F6); [rewrite E5, E2; exact ER|exact Hm'|lia|].
    split; [|split; [exact Hv|split; [exact Hx|split; [exact Hr|]]]].
    + unfold ceil_block, to_int. rewrite F6, trunc_R, E6, <- ER, <- mult_IZR, Ztrunc_IZR. replace (fits_int (M * lanes b)) with true; [rewrite Z.mul_comm; reflexivity|].
      unfold fits_int, int_min, int_max, M. destruct b; cbn [lanes] in *; symmetry; apply andb_true_intro; split; apply Z.leb_le; Z.to_euclidean_division_equations; lia.
    + replace (IZR (lanes b * M)) with (IZR m' * bpow radix2 e')%R by (rewrite <- ER, mult_IZR; ring). apply fmt32; [exact Hm'|lia].
Qed.

Section Init.
Context {A : Type}.
Lemma init_ok b (hann : Z -> list A) ws p : ws <= 536870912 -> (forall n, zlen (hann n) = n \/ n < 0) -> exists W P m, sEnv_init b hann ws p = Ok (mkEnv W P 0 (hann W) m) /\
  zlen m = 2 * W /\ lanes b <= P <= W /\ W mod lanes b = 0 /\ P mod lanes b = 0 /\ zlen (hann W) = W /\
  (ws <= 16777216 -> W = rounded_up (lanes b) ws /\ P = if W <? p then W else rounded_up (lanes b) p) /\ W <= 536870912.
Proof.
  intros Hws Hh. pose proof (lanes_pos b) as LP. unfold sEnv_init.
  assert (HW : exists W, (if ws <=? lanes b then Ok (lanes b) else ceil_block ws (lanes b)) = Ok W /\ lanes b <= W <= 536870912 /\ W mod lanes b = 0 /\ generic_format radix2 fexp32 (IZR W) /\ (ws <= 16777216 -> W = rounded_up (lanes b) ws)).
  { unfold rounded_up. destruct (Z.leb_spec ws (lanes b)) as [L|L].
    - exists (lanes b). split; [reflexivity|]. split; [destruct b; cbn; lia|]. split; [apply Z_mod_same_full|]. split; [apply fmt_Z; destruct b; cbn; lia|reflexivity].
    - destruct (ceil_block_ok b ws ltac:(lia)) as (v & E & Hv & Hx & Hr & G). exists (lanes b * ((v + lanes b - 1) / lanes b)). split; [exact E|]. split; [|split; [rewrite Z.mul_comm; apply Z_mod_mult|split; [exact G|]]].
      + destruct b; cbn [lanes] in *; Z.to_euclidean_division_equations; lia.
      + intros Q. rewrite (Hx Q). reflexivity. }
  destruct HW as (W & EW & BW & MW & GW & SW). rewrite EW. cbn [obind].
  assert (HP : exists P, (if p <=? lanes b then Ok (lanes b) else if W <? p then Ok W else ceil_block p (lanes b)) = Ok P /\ lanes b <= P <= W /\ P mod lanes b = 0 /\ (W <= 16777216 -> P = if W <? p then W else rounded_up (lanes b) p)).
  { unfold rounded_up. destruct (Z.leb_spec p (lanes b)) as [L|L].
    - exists (lanes b). split; [reflexivity|]. split; [lia|]. split; [apply Z_mod_same_full|]. intros _. replace (W <? p) with false by (symmetry; apply Z.ltb_ge; lia). reflexivity.
    - destruct (Z.ltb_spec W p) as [L2|L2]; [exists W; auto with zarith|].
      destruct (ceil_block_ok b p ltac:(lia)) as (v & E & Hv & Hx & Hr & G). exists (lanes b * ((v + lanes b - 1) / lanes b)). split; [exact E|].
      assert (VW : v <= W) by (eapply rint_mono; eauto). split; [|split; [rewrite Z.mul_comm; apply Z_mod_mult|]].
      + destruct b; cbn [lanes] in *; Z.to_euclidean_division_equations; lia.
      + intros Q. rewrite Hx by lia. reflexivity. }
  destruct HP as (P & EP & BP & MP & SP). rewrite EP. cbn [obind]. replace (2 * W <=? int_max) with true by (symmetry; apply Z.leb_le; unfold int_max; lia).
  exists W, P, (fresh_block (2 * W)). split; [reflexivity|]. split; [unfold fresh_block, zlen; rewrite repeat_length; lia|]. split; [lia|]. split; [exact MW|]. split; [exact MP|]. split; [destruct (Hh W); [assumption|lia]|]. split; [|lia].
  intros Q. split; [apply SW; exact Q|]. apply SP. rewrite (SW Q). unfold rounded_up. destruct (Z.leb_spec ws (lanes b)); [destruct b; cbn; lia|]. destruct b; cbn [lanes] in *; Z.to_euclidean_division_equations; lia.
Qed.
End Init.
