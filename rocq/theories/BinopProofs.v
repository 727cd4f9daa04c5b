(** Proofs about the control binops. *)
From Verif Require Import BinopModel BinopSpec Float32Facts.
From Flocq Require Import Core.
From Coq Require Import Reals Lra ZifyBool.
Local Open Scope Z_scope.

Lemma trunc_range_iff (x : R) : (int_min <= Ztrunc x <= int_max) <-> (-2147483649 < x < 2147483648)%R.
Proof.
  unfold int_min, int_max. destruct (Rle_or_lt 0 x) as [H|H].
  - rewrite Ztrunc_floor by lra. pose proof (Zfloor_lb x) as A. pose proof (Zfloor_ub x) as B.
    pose proof (Zfloor_lub 0 x H) as C. split.
    + intros [_ D]. split; [lra|]. apply IZR_le in D. lra.
    + intros [_ D]. split; [lia|]. assert (E : (IZR (Zfloor x) < 2147483648)%R) by lra. apply lt_IZR in E. lia.
  - rewrite Ztrunc_ceil by lra. pose proof (Zceil_ub x) as A. pose proof (Zceil_lb x) as B.
    assert (C : Zceil x <= 0) by (apply Zceil_glb; lra). split.
    + intros [D _]. split; [|lra]. apply IZR_le in D. lra.
    + intros [D _]. split; [|lia]. assert (E : (-2147483649 < IZR (Zceil x))%R) by lra.
      apply lt_IZR in E. lia.
Qed.
Lemma to_int_spec f : (fits f /\ to_int f = Ok (int_of f)) \/ (~ fits f /\ to_int f = UB).
Proof.
  unfold to_int, fits, int_of, fits_int. rewrite trunc_R. pose proof (trunc_range_iff (val f)) as T.
  destruct (is_finite f); [|right; split; [intros [A _]; discriminate|auto]].
  destruct (Z.leb_spec int_min (Ztrunc (val f))), (Z.leb_spec (Ztrunc (val f)) int_max); cbn;
    [left|right|right|right]; (split; [|reflexivity]); try tauto;
    intros [_ B]; apply T in B; lia.
Qed.
Lemma small_iff (x : R) : Ztrunc x = 0 <-> (Rabs x < 1)%R.
Proof.
  destruct (Rle_or_lt 0 x) as [H|H].
  - rewrite Ztrunc_floor, Rabs_pos_eq by lra. pose proof (Zfloor_lb x) as A. pose proof (Zfloor_ub x) as B. split.
    + intro E. rewrite E in B. lra.
    + intro E. assert (IZR (Zfloor x) < 1)%R by lra. apply lt_IZR in H0. pose proof (Zfloor_lub 0 x H). lia.
  - rewrite Ztrunc_ceil, Rabs_left by lra. pose proof (Zceil_ub x) as A. pose proof (Zceil_lb x) as B. split.
    + intro E. rewrite E in B. lra.
    + intro E. assert (-1 < IZR (Zceil x))%R by lra. apply lt_IZR in H0.
      assert (C : Zceil x <= 0) by (apply Zceil_glb; lra). lia.
Qed.
Lemma feqb_zero k : feqb k fzero = true <-> is_zero k.
Proof.
  unfold feqb, is_zero, is_int. destruct (is_finite k) eqn:F.
  - rewrite Beqb_correct by auto. change (B2R fzero) with 0%R.
    destruct (Req_bool_spec (val k) 0%R) as [E|E]; split; auto; try discriminate. intros [_ X]. lra.
  - split; [|intros [A _]; discriminate]. destruct k as [s|[|]| |s m e B]; try discriminate.
Qed.
Lemma int_of_zero k : is_zero k -> fits k /\ int_of k = 0.
Proof.
  intros [A B]. unfold fits, int_of. rewrite B. split; [split; [auto|lra]|]. apply Ztrunc_IZR.
Qed.

Lemma fits_range f : fits f -> int_min <= int_of f <= int_max.
Proof. intros [_ H]. apply trunc_range_iff. exact H. Qed.

Ltac ti f := let H := fresh "F" in let E := fresh "E" in destruct (to_int_spec f) as [[H E]|[H E]].

Lemma safe_iff powf atan2f op f k :
  (safe op f k -> exists r, perform_op powf atan2f op f k = Ok r) /\
  (~ safe op f k -> perform_op powf atan2f op f k = UB).
Proof.
  destruct op; cbn [safe perform_op];
    try (split; [intros _; eexists; reflexivity|intro H; exfalso; apply H; exact I]).
  - (* INT_DIV *) ti k; rewrite E; cbn [obind]; [|split; [tauto|auto]].
    rewrite <- small_iff. fold (int_of k). destruct (Z.eqb_spec (int_of k) 0) as [Z0|Z0]; cbn [negb].
    { split; [eexists; reflexivity|tauto]. }
    ti f; rewrite E0; cbn [obind]; [|split; [tauto|auto]].
    unfold c_div, overflowing. destruct (Z.eqb_spec (int_of k) 0); [tauto|]. cbn [orb].
    destruct (Z.eqb_spec (int_of f) int_min), (Z.eqb_spec (int_of k) (-1)); unfold int_min in *; cbn [andb obind];
      (split; [intro; try (eexists; reflexivity); exfalso; tauto|intro; try reflexivity; exfalso; tauto]).
  - (* MOD_BIPOLAR *) ti k; rewrite E; cbn [obind]; [|split; [tauto|auto]].
    rewrite <- small_iff. fold (int_of k). destruct (Z.eqb_spec (int_of k) 0) as [Z0|Z0]; cbn [negb].
    { split; [eexists; reflexivity|tauto]. }
    ti f; rewrite E0; cbn [obind]; [|split; [tauto|auto]].
    unfold c_rem, overflowing. destruct (Z.eqb_spec (int_of k) 0); [tauto|]. cbn [orb].
    destruct (Z.eqb_spec (int_of f) int_min), (Z.eqb_spec (int_of k) (-1)); unfold int_min in *; cbn [andb obind];
      (split; [intro; try (eexists; reflexivity); exfalso; tauto|intro; try reflexivity; exfalso; tauto]).
  - (* MOD_UNIPOLAR *)
    pose proof (feqb_zero k) as FZ. destruct (feqb k fzero).
    { split; [eexists; reflexivity|tauto]. }
    assert (NZ : ~ is_zero k) by (intro; assert (false = true) by tauto; discriminate). clear FZ.
    assert (S1 : (1 <= Rabs (val k))%R <-> int_of k <> 0).
    { unfold int_of. rewrite small_iff. lra. }
    rewrite S1. clear S1.
    ti f; rewrite E; cbn [obind]; [|split; [tauto|auto]].
    ti k; rewrite E0; cbn [obind]; [|split; [tauto|auto]].
    unfold c_rem, overflowing. destruct (Z.eqb_spec (int_of k) 0); cbn [orb obind].
    { split; [tauto|auto]. }
    destruct (Z.eqb_spec (int_of f) int_min), (Z.eqb_spec (int_of k) (-1)); unfold int_min in *; cbn [andb obind];
      (split; [intro; try (eexists; reflexivity); exfalso; tauto|intro; try reflexivity; exfalso; tauto]).
  - ti f; rewrite E; cbn [obind]; [|split; [tauto|auto]].
    ti k; rewrite E0; cbn [obind]; [|split; [tauto|auto]].
    unfold c_shl, int_max.
    destruct (Z.leb_spec 0 (int_of k)), (Z.ltb_spec (int_of k) 32), (Z.leb_spec 0 (int_of f)),
      (Z.leb_spec (int_of f * 2 ^ int_of k) 2147483647); cbn [andb obind];
      (split; [intro; try (eexists; reflexivity); exfalso; lia|intro; try reflexivity; exfalso]);
      match goal with H : ~ _ |- _ => apply H end; split; [auto|]; split; [auto|]; lia.
  - ti f; rewrite E; cbn [obind]; [|split; [tauto|auto]].
    ti k; rewrite E0; cbn [obind]; [|split; [tauto|auto]].
    unfold c_shr.
    destruct (Z.leb_spec 0 (int_of k)), (Z.ltb_spec (int_of k) 32); cbn [andb obind];
      (split; [intro; try (eexists; reflexivity); exfalso; lia|intro; try reflexivity; exfalso]);
      match goal with H : ~ _ |- _ => apply H end; split; [auto|]; split; [auto|]; lia.
  - ti f; rewrite E; cbn [obind]; [|split; [tauto|auto]].
    ti k; rewrite E0; cbn [obind]; [|split; [tauto|auto]]. split; [eexists; reflexivity|tauto].
  - ti f; rewrite E; cbn [obind]; [|split; [tauto|auto]].
    ti k; rewrite E0; cbn [obind]; [|split; [tauto|auto]]. split; [eexists; reflexivity|tauto].
  - ti f; rewrite E; cbn [obind]; [|split; [tauto|auto]].
    ti k; rewrite E0; cbn [obind]; [|split; [tauto|auto]]. split; [eexists; reflexivity|tauto].
Qed.

Lemma is_int_fits f z : is_int f z -> int_min <= z <= int_max -> fits f /\ int_of f = z.
Proof.
  intros [A B] H. unfold fits, int_of. rewrite B, Ztrunc_IZR. split; [|auto]. split; [auto|].
  apply trunc_range_iff. rewrite Ztrunc_IZR. exact H.
Qed.
Lemma to_int_int f z : is_int f z -> int_min <= z <= int_max -> to_int f = Ok z.
Proof.
  intros A B. destruct (is_int_fits f z A B) as [C D]. destruct (to_int_spec f) as [[_ E]|[E _]]; [|tauto].
  rewrite E, D. reflexivity.
Qed.
Lemma of_int_is_int z : Z.abs z <= 2 ^ 24 -> is_int (of_int z) z.
Proof. intro H. destruct (of_int_exact z H). split; auto. Qed.

Lemma unipolar_spec powf atan2f f k a b : is_int f a -> is_int k b ->
  int_min <= a <= int_max -> 0 < Z.abs b <= 2 ^ 24 -> ~ (a = int_min /\ b = -1) ->
  exists r, perform_op powf atan2f MOD_UNIPOLAR f k = Ok r /\ is_int r (a mod Z.abs b).
Proof.
  intros Hf Hk Ha Hb Ho. cbn [perform_op].
  assert (Nk : feqb k fzero = false).
  { destruct (feqb k fzero) eqn:E; [|auto]. apply feqb_zero in E. destruct E as [_ E], Hk as [_ Hk].
    rewrite Hk in E. apply eq_IZR in E. lia. }
  rewrite Nk, (to_int_int f a), (to_int_int k b); auto; [|unfold int_min, int_max; lia]. cbn [obind].
  unfold c_rem. destruct (Z.eqb_spec b 0); [lia|]. cbn [orb].
  destruct (Z.eqb_spec a int_min), (Z.eqb_spec b (-1)); cbn [andb obind]; try tauto.
  all: assert (Rb : Z.abs (Z.rem a b) < Z.abs b) by (apply Z.rem_bound_abs; auto).
  all: destruct (of_int_is_int (Z.rem a b)) as [R1 R2]; [lia|].
  all: assert (L : fltb (of_int (Z.rem a b)) fzero = (Z.rem a b <? 0)).
  1,3,5: unfold fltb; rewrite Bltb_correct by auto; change (B2R fzero) with 0%R; rewrite R2;
      destruct (Rlt_bool_spec (IZR (Z.rem a b)) 0) as [X|X]; [apply lt_IZR in X|apply le_IZR in X]; lia.
  all: rewrite L.
  all: assert (Q : a = b * Z.quot a b + Z.rem a b) by (apply Z.quot_rem; auto).
  all: assert (M : a mod Z.abs b = if Z.rem a b <? 0 then Z.rem a b + Z.abs b else Z.rem a b).
  1,3,5: symmetry; destruct (Z.ltb_spec (Z.rem a b) 0);
     [apply Z.mod_unique with (Z.sgn b * Z.quot a b - 1)|apply Z.mod_unique with (Z.sgn b * Z.quot a b)];
     [left; lia| |left; lia|]; rewrite Q at 1; pose proof (Z.abs_sgn b); nia.
  all: eexists; split; [reflexivity|]; rewrite M; destruct (Z.ltb_spec (Z.rem a b) 0); [|split; auto].
  all: destruct Hk as [K1 K2].
  all: destruct (fadd_exact (of_int (Z.rem a b)) (fabs k) (Z.rem a b + Z.abs b) 0) as [X1 X2];
     [auto|unfold fabs; rewrite is_finite_Babs; auto| |lia|lia|].
  1,3,5: unfold fabs; rewrite B2R_Babs, R2, K2, plus_IZR, <- abs_IZR; cbn; lra.
  all: split; [auto|]; rewrite X1; cbn; lra.
Qed.
