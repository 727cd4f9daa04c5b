(** Proofs of the values of the control operators. *)
From Verif Require Import BinopModel BinopSpec BinopProofs UnopModel BinopValSpec Float32Facts.
From Flocq Require Import Core.
From Coq Require Import Reals Lra.
Local Open Scope R_scope.

Lemma round_nearest x : round radix2 (SpecFloat.fexp 24 128) (round_mode mode_NE) x = nearest x.
Proof. reflexivity. Qed.
Lemma nearest_0 : nearest 0 = 0.
Proof. unfold nearest. apply round_0. apply valid_rnd_N. Qed.
Lemma overflow_inf (r : f32) s : B2SF r = binary_overflow 24 128 mode_NE s -> r = B754_infinity s.
Proof. intro H. apply B2SF_inj. rewrite H. reflexivity. Qed.
Lemma big_not_0 : 0 < bpow radix2 128.
Proof. apply bpow_gt_0. Qed.

Lemma rounds_intro (x : R) (r : f32) (s : bool) :
  (if Rlt_bool (Rabs (nearest x)) (bpow radix2 128)
   then val r = nearest x /\ is_finite r = true
   else B2SF r = binary_overflow 24 128 mode_NE s) ->
  (bpow radix2 128 <= Rabs (nearest x) -> (s = true <-> x < 0)) ->
  rounds_to x r.
Proof.
  intros H S. destruct (Rlt_bool_spec (Rabs (nearest x)) (bpow radix2 128)) as [L|L].
  - split; [intros _; tauto|intro; lra].
  - split; [intro; lra|intros _]. exists s. split; [apply overflow_inf, H|auto].
Qed.
Lemma sign_neg (x : f32) : is_finite x = true -> Bsign x = true -> val x <= 0.
Proof.
  destruct x as [s| | |s m e B]; cbn [is_finite Bsign]; try discriminate; intros _ H; subst.
  - cbn. lra.
  - cbn [B2R]. apply F2R_le_0. cbn. lia.
Qed.
Lemma sign_pos (x : f32) : is_finite x = true -> Bsign x = false -> 0 <= val x.
Proof.
  destruct x as [s| | |s m e B]; cbn [is_finite Bsign]; try discriminate; intros _ H; subst.
  - cbn. lra.
  - cbn [B2R]. apply F2R_ge_0. cbn. lia.
Qed.
Lemma nonzero_of_big x : bpow radix2 128 <= Rabs (nearest x) -> x <> 0.
Proof. intros H E. subst. rewrite nearest_0, Rabs_R0 in H. pose proof big_not_0. lra. Qed.

Lemma add_rounds f k : is_finite f = true -> is_finite k = true -> rounds_to (val f + val k) (fadd f k).
Proof.
  intros F K. pose proof (Bplus_correct 24 128 _ _ mode_NE f k F K) as H. rewrite round_nearest in H.
  apply rounds_intro with (Bsign f).
  - unfold fadd. destruct (Rlt_bool _ _); tauto.
  - intro L. pose proof (nonzero_of_big _ L). rewrite Rlt_bool_false in H by auto. destruct H as [_ H].
    destruct (Bsign f) eqn:E.
    + pose proof (sign_neg f F E). pose proof (sign_neg k K (eq_sym H)). split; auto. intros _. lra.
    + pose proof (sign_pos f F E). pose proof (sign_pos k K (eq_sym H)). split; [discriminate|]. lra.
Qed.
Lemma sub_rounds f k : is_finite f = true -> is_finite k = true -> rounds_to (val f - val k) (fsub f k).
Proof.
  intros F K. pose proof (Bminus_correct 24 128 _ _ mode_NE f k F K) as H. rewrite round_nearest in H.
  apply rounds_intro with (Bsign f).
  - unfold fsub. destruct (Rlt_bool _ _); tauto.
  - intro L. pose proof (nonzero_of_big _ L). rewrite Rlt_bool_false in H by auto. destruct H as [_ H].
    destruct (Bsign f) eqn:E, (Bsign k) eqn:E'; try discriminate.
    + pose proof (sign_neg f F E). pose proof (sign_pos k K E'). split; auto. intros _. lra.
    + pose proof (sign_pos f F E). pose proof (sign_neg k K E'). split; [discriminate|]. lra.
Qed.
Lemma mul_rounds f k : is_finite f = true -> is_finite k = true -> rounds_to (val f * val k) (fmul f k).
Proof.
  intros F K. pose proof (Bmult_correct 24 128 _ _ mode_NE f k) as H. rewrite round_nearest in H.
  apply rounds_intro with (xorb (Bsign f) (Bsign k)).
  - unfold fmul. rewrite F, K in H. destruct (Rlt_bool _ _); tauto.
  - intro L. pose proof (nonzero_of_big _ L) as N.
    destruct (Bsign f) eqn:E, (Bsign k) eqn:E'; cbn [xorb];
      [pose proof (sign_neg f F E); pose proof (sign_neg k K E')
      |pose proof (sign_neg f F E); pose proof (sign_pos k K E')
      |pose proof (sign_pos f F E); pose proof (sign_neg k K E')
      |pose proof (sign_pos f F E); pose proof (sign_pos k K E')];
      (split; [intros; try discriminate; nra|intros; try reflexivity; nra]).
Qed.
Lemma div_rounds f k : is_finite f = true -> is_finite k = true -> val k <> 0 -> rounds_to (val f / val k) (fdiv f k).
Proof.
  intros F K Z. pose proof (Bdiv_correct 24 128 _ _ mode_NE f k Z) as H. rewrite round_nearest in H.
  apply rounds_intro with (xorb (Bsign f) (Bsign k)).
  - unfold fdiv. rewrite F in H. destruct (Rlt_bool _ _); tauto.
  - intro L. pose proof (nonzero_of_big _ L) as N. unfold Rdiv in *.
    assert (P : 0 < val k -> 0 < / val k) by apply Rinv_0_lt_compat.
    assert (Q : val k < 0 -> / val k < 0) by apply Rinv_lt_0_compat.
    destruct (Bsign f) eqn:E, (Bsign k) eqn:E'; cbn [xorb];
      [pose proof (sign_neg f F E); pose proof (sign_neg k K E'); assert (/ val k < 0) by (apply Q; lra)
      |pose proof (sign_neg f F E); pose proof (sign_pos k K E'); assert (0 < / val k) by (apply P; lra)
      |pose proof (sign_pos f F E); pose proof (sign_neg k K E'); assert (/ val k < 0) by (apply Q; lra)
      |pose proof (sign_pos f F E); pose proof (sign_pos k K E'); assert (0 < / val k) by (apply P; lra)];
      (split; [intros; try discriminate; nra|intros; try reflexivity; nra]).
Qed.
Lemma int_rounds z : rounds_to (IZR z) (of_int z).
Proof.
  pose proof (binary_normalize_correct 24 128 _ _ mode_NE z 0 false) as H. cbv zeta in H.
  assert (E : F2R (Float radix2 z 0) = IZR z) by (unfold F2R; cbn; lra).
  rewrite E, round_nearest in H. apply rounds_intro with (Rlt_bool (IZR z) 0).
  - unfold of_int, fdyadic. destruct (Rlt_bool (Rabs _) _); tauto.
  - intros _. destruct (Rlt_bool_spec (IZR z) 0); split; auto; try discriminate; lra.
Qed.
Lemma truth_fbool (b : bool) (P : Prop) : (b = true <-> P) -> truth P (fbool b).
Proof.
  intro H. unfold truth, fbool. destruct b.
  - split; [intros _; apply of_int_is_int; lia|intro N; exfalso; tauto].
  - split; [intro X; apply H in X; discriminate|intros _; split; reflexivity].
Qed.
Lemma is_zero_iff f : is_finite f = true -> (is_zero f <-> val f = 0).
Proof. intro F. unfold is_zero, is_int. tauto. Qed.
Lemma zero_zero : is_zero fzero.
Proof. split; reflexivity. Qed.
Lemma feqb_iff f k : is_finite f = true -> is_finite k = true -> (feqb f k = true <-> val f = val k).
Proof. intros F K. unfold feqb. rewrite Beqb_correct by auto. destruct (Req_bool_spec (val f) (val k)); split; auto; discriminate. Qed.
Lemma fltb_iff f k : is_finite f = true -> is_finite k = true -> (fltb f k = true <-> val f < val k).
Proof. intros F K. unfold fltb. rewrite Bltb_correct by auto. destruct (Rlt_bool_spec (val f) (val k)); split; auto; try discriminate; lra. Qed.
Lemma fleb_iff f k : is_finite f = true -> is_finite k = true -> (fleb f k = true <-> val f <= val k).
Proof. intros F K. unfold fleb. rewrite Bleb_correct by auto. destruct (Rle_bool_spec (val f) (val k)); split; auto; try discriminate; lra. Qed.
Lemma finite_not_nan (f : f32) : is_finite f = true -> is_nan f = false.
Proof. destruct f; cbn; congruence. Qed.
Lemma int_of_0 k : val k = 0 -> int_of k = 0%Z.
Proof. unfold int_of. intro E. rewrite E. apply Ztrunc_IZR. Qed.

Lemma small_nearest z : (int_min <= z <= int_max)%Z -> Rabs (nearest (IZR z)) < bpow radix2 128.
Proof.
  intro H. apply Rle_lt_trans with (bpow radix2 31); [|apply bpow_lt; lia].
  unfold nearest. apply abs_round_le_generic; [apply FLT_exp_valid; exact prec24|apply valid_rnd_N| |].
  - apply generic_format_bpow. unfold FLT_exp. lia.
  - rewrite <- abs_IZR. replace (bpow radix2 31) with (IZR (2 ^ 31)) by reflexivity. apply IZR_le.
    unfold int_min, int_max in H. lia.
Qed.
Lemma rem_range a b : (int_min <= a <= int_max)%Z -> b <> 0%Z -> (int_min <= Z.rem a b <= int_max)%Z.
Proof.
  intros H B. assert (Z.abs (Z.rem a b) <= Z.abs a)%Z.
  { pose proof (Z.rem_le (Z.abs a) (Z.abs b)). rewrite <- Z.rem_abs in * by auto. apply Z.rem_le; lia. }
  destruct (Z.le_gt_cases 0 a).
  - pose proof (Z.rem_nonneg a b B H1). unfold int_min, int_max in *. lia.
  - pose proof (Z.rem_nonpos a b B). unfold int_min, int_max in *. lia.
Qed.

Lemma value powf atan2f op f k r : is_finite f = true -> is_finite k = true ->
  perform_op powf atan2f op f k = Ok r -> computes powf atan2f op f k r.
Proof.
  intros F K. assert (Z0 : is_finite fzero = true) by reflexivity. assert (V0 : val fzero = 0) by reflexivity.
  destruct op; cbn [perform_op computes].
  - intro E. injection E as <-. apply add_rounds; auto.
  - intro E. injection E as <-. apply sub_rounds; auto.
  - intro E. injection E as <-. apply mul_rounds; auto.
  - pose proof (feqb_iff k fzero K Z0) as Q. rewrite V0 in Q. destruct (feqb k fzero); cbn [negb]; intro E; injection E as <-.
    + assert (val k = 0) by tauto. split; [tauto|]. intros _. apply zero_zero.
    + assert (val k <> 0) by (intro; assert (false = true) by tauto; discriminate). split; [|tauto]. intros _. apply div_rounds; auto.
  - ti k; rewrite E; cbn [obind]; [|discriminate].
    destruct (Z.eqb_spec (int_of k) 0) as [Z1|Z1]; cbn [negb].
    { intro X. injection X as <-. split; [tauto|]. intros _. apply zero_zero. }
    ti f; rewrite E0; cbn [obind]; [|discriminate]. unfold c_div. destruct (_ || _); cbn [obind]; [discriminate|].
    intro X. injection X as <-. split; [|tauto]. intros _. apply int_rounds.
  - ti k; rewrite E; cbn [obind]; [|discriminate].
    destruct (Z.eqb_spec (int_of k) 0) as [Z1|Z1]; cbn [negb].
    { intro X. injection X as <-. split; [tauto|]. intros _. apply zero_zero. }
    ti f; rewrite E0; cbn [obind]; [|discriminate]. unfold c_rem. destruct (_ || _); cbn [obind]; [discriminate|].
    intro X. injection X as <-. split; [|tauto]. intros _. apply int_rounds.
  - pose proof (feqb_iff k fzero K Z0) as Q. rewrite V0 in Q. destruct (feqb k fzero) eqn:Ek; cbn [obind].
    { assert (L : fltb fzero fzero = false) by reflexivity. rewrite L. intro X. injection X as <-.
      assert (val k = 0) by tauto. split; [intros _; apply zero_zero|]. split; tauto. }
    assert (NZ : val k <> 0) by (intro; assert (false = true) by tauto; discriminate).
    ti f; rewrite E; cbn [obind]; [|discriminate]. ti k; rewrite E0; cbn [obind]; [|discriminate].
    unfold c_rem. destruct (Z.eqb_spec (int_of k) 0) as [Z1|Z1]; cbn [orb obind]; [discriminate|].
    destruct (_ && _); cbn [obind]; [discriminate|].
    pose proof (rem_range _ _ (fits_range f F0) Z1) as RR. set (z := Z.rem (int_of f) (int_of k)) in *.
    destruct (int_rounds z) as [IR _]. specialize (IR (small_nearest z RR)). destruct IR as [IF IV].
    pose proof (fltb_iff (of_int z) fzero IF Z0) as LT. rewrite V0, IV in LT.
    assert (NS : (z < 0)%Z <-> nearest (IZR z) < 0).
    { split; intro H.
      - destruct (of_int_exact (-1)) as [M1 _]; [lia|].
        assert (A : nearest (IZR z) <= nearest (-1)).
        { unfold nearest. apply round_le; [apply FLT_exp_valid; exact prec24|apply valid_rnd_N|]. apply IZR_le. lia. }
        assert (B : nearest (-1) = -1).
        { unfold nearest. apply round_generic; [apply valid_rnd_N|].
          pose proof (fmt32 (-1) 0) as G. replace (IZR (-1) * bpow radix2 0) with (-1) in G by (cbn; lra). apply G; lia. }
        lra.
      - destruct (Z.lt_ge_cases z 0) as [|C]; [auto|]. exfalso.
        assert (A : nearest 0 <= nearest (IZR z)).
        { unfold nearest. apply round_le; [apply FLT_exp_valid; exact prec24|apply valid_rnd_N|]. apply IZR_le. lia. }
        rewrite nearest_0 in A. lra. }
    destruct (fltb (of_int z) fzero) eqn:L; intro X; injection X as <-.
    + assert (z < 0)%Z by (apply NS; apply LT; reflexivity). split; [tauto|]. split; [lia|]. intros _ _.
      pose proof (add_rounds (of_int z) (fabs k) IF) as A. unfold fabs in *. rewrite is_finite_Babs, B2R_Babs, IV in A.
      apply A, K.
    + assert (~ (z < 0)%Z) by (intro H; apply NS, LT in H; discriminate). split; [tauto|]. split; [|lia]. intros _ _. apply int_rounds.
  - ti f; rewrite E; cbn [obind]; [|discriminate]. ti k; rewrite E0; cbn [obind]; [|discriminate].
    unfold c_shl. destruct (_ && _); cbn [obind]; [|discriminate]. intro X. injection X as <-. apply int_rounds.
  - ti f; rewrite E; cbn [obind]; [|discriminate]. ti k; rewrite E0; cbn [obind]; [|discriminate].
    unfold c_shr. destruct (_ && _); cbn [obind]; [|discriminate]. intro X. injection X as <-. apply int_rounds.
  - ti f; rewrite E; cbn [obind]; [|discriminate]. ti k; rewrite E0; cbn [obind]; [|discriminate].
    intro X. injection X as <-. apply int_rounds.
  - ti f; rewrite E; cbn [obind]; [|discriminate]. ti k; rewrite E0; cbn [obind]; [|discriminate].
    intro X. injection X as <-. apply int_rounds.
  - ti f; rewrite E; cbn [obind]; [|discriminate]. ti k; rewrite E0; cbn [obind]; [|discriminate].
    intro X. injection X as <-. apply int_rounds.
  - intro X. injection X as <-. apply truth_fbool, feqb_iff; auto.
  - intro X. injection X as <-. apply truth_fbool. pose proof (feqb_iff f k F K). destruct (feqb f k); cbn; split; try tauto; try discriminate.
    intros _ H'. assert (false = true) by tauto. discriminate.
  - intro X. injection X as <-. pose proof (feqb_iff f fzero F Z0) as A. pose proof (feqb_iff k fzero K Z0) as B. rewrite V0 in A, B.
    change (truth (val f <> 0 /\ val k <> 0) (if feqb f fzero || feqb k fzero then fbool false else fbool true)).
    destruct (feqb f fzero), (feqb k fzero); cbn [orb]; apply truth_fbool; intuition (try discriminate; try congruence).
  - intro X. injection X as <-. pose proof (feqb_iff f fzero F Z0) as A. pose proof (feqb_iff k fzero K Z0) as B. rewrite V0 in A, B.
    change (truth (val f <> 0 \/ val k <> 0) (if feqb f fzero && feqb k fzero then fbool false else fbool true)).
    destruct (feqb f fzero), (feqb k fzero); cbn [andb]; apply truth_fbool; intuition (try discriminate; try congruence).
  - intro X. injection X as <-. apply truth_fbool, fltb_iff; auto.
  - intro X. injection X as <-. apply truth_fbool, fleb_iff; auto.
  - intro X. injection X as <-. apply truth_fbool. rewrite fltb_iff by auto. lra.
  - intro X. injection X as <-. apply truth_fbool. rewrite fleb_iff by auto. lra.
  - intro X. injection X as <-. unfold fmax, equals. rewrite (finite_not_nan f F), (finite_not_nan k K).
    pose proof (fltb_iff f k F K) as L. destruct (fltb f k).
    + split; auto. rewrite Rmax_right; auto. apply Rlt_le. tauto.
    + split; auto. rewrite Rmax_left; auto. apply Rnot_lt_le. intro H. apply L in H. discriminate.
  - intro X. injection X as <-. unfold fmin, equals. rewrite (finite_not_nan f F), (finite_not_nan k K).
    pose proof (fltb_iff k f K F) as L. destruct (fltb k f).
    + split; auto. rewrite Rmin_right; auto. apply Rlt_le. tauto.
    + split; auto. rewrite Rmin_left; auto. apply Rnot_lt_le. intro H. apply L in H. discriminate.
  - pose proof (fltb_iff fzero f Z0 F) as L. rewrite V0 in L. destruct (fltb fzero f); intro X; injection X as <-.
    + assert (0 < val f) by tauto. split; auto. lra.
    + assert (~ 0 < val f) by (intro H; apply L in H; discriminate). split; [tauto|]. intros _. apply zero_zero.
  - pose proof (feqb_iff f fzero F Z0) as A. pose proof (feqb_iff k fzero K Z0) as B. rewrite V0 in A, B.
    destruct (feqb f fzero), (feqb k fzero); cbn [andb]; intro X; injection X as <-;
      (split; [intuition (try congruence)|intuition (try apply zero_zero; try discriminate)]).
Qed.
