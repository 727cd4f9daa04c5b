(** C83, C84: the values of the control operators. *)
From Verif Require Import BinopModel BinopSpec BinopProofs UnopModel BinopValSpec BinopValProofs Float32Facts.
From Flocq Require Import Core.
From Coq Require Import Reals Lra.
Local Open Scope R_scope.

(** C83: whenever a binary operator answers (see [safe] for when it does), the answer is the value of
    the operator on the two numbers. *)
Theorem binop_computes : forall powf atan2f op f k r, is_finite f = true -> is_finite k = true ->
  perform_op powf atan2f op f k = Ok r -> computes powf atan2f op f k r.
Proof. exact value. Qed.

(** In every history the object answers exactly the numbers on its left inlet, in order, each
    combined with the latest operand; the variant with a constant operand likewise. *)
Theorem binop_history_values : forall powf atan2f op k l k' out,
  binop_run powf atan2f op k l = Ok (k', out) ->
  k' = in_force k l /\
  Forall2 (fun q r => is_finite (fst q) = true -> is_finite (snd q) = true -> computes powf atan2f op (fst q) (snd q) r)
    (questions k [] l) out.
Proof.
  intros powf atan2f op k0 l.
  assert (G : forall l before k k' out, k = in_force k0 before ->
    binop_run powf atan2f op k l = Ok (k', out) ->
    k' = in_force k l /\
    Forall2 (fun q r => is_finite (fst q) = true -> is_finite (snd q) = true -> computes powf atan2f op (fst q) (snd q) r)
      (questions k0 before l) out).
  { clear l. induction l as [|i l IH]; intros before k k' out Hk H; cbn [binop_run] in H.
    { injection H as <- <-. split; auto. constructor. }
    assert (IF : in_force k0 (before ++ [i]) = match operand_of i with Some g => g | None => k end).
    { rewrite Hk. clear. revert k0. induction before as [|j b IH]; intro k0; cbn [app in_force]; auto. }
    cbn [in_force questions]. rewrite <- IF.
    destruct i as [[f|] e1|[g|]]; cbn [cBinop_onMessage obind operand_of] in H, IF.
    - destruct (perform_op powf atan2f op f (match e1 with Some g => g | None => k end)) as [r| |] eqn:P; cbn [obind] in H; try discriminate.
      destruct (binop_run powf atan2f op (match e1 with Some g => g | None => k end) l) as [[k2 out2]| |] eqn:B; cbn [obind] in H; try discriminate.
      injection H as <- <-. destruct (IH (before ++ [Left (Some f) e1]) _ _ _ (eq_sym IF) B) as [A1 A2].
      rewrite IF. split; [exact A1|]. constructor; [|exact A2]. cbn [fst snd]. intros F K. apply value; auto.
    - destruct (binop_run powf atan2f op k l) as [[k2 out2]| |] eqn:B; cbn [obind] in H; try discriminate.
      injection H as <- <-. rewrite IF. apply (IH (before ++ [Left None e1]) _ _ _ (eq_sym IF) B).
    - destruct (binop_run powf atan2f op g l) as [[k2 out2]| |] eqn:B; cbn [obind] in H; try discriminate.
      injection H as <- <-. rewrite IF. apply (IH (before ++ [Right (Some g)]) _ _ _ (eq_sym IF) B).
    - destruct (binop_run powf atan2f op k l) as [[k2 out2]| |] eqn:B; cbn [obind] in H; try discriminate.
      injection H as <- <-. rewrite IF. apply (IH (before ++ [Right None]) _ _ _ (eq_sym IF) B). }
  intros k' out. apply (G l [] k0). reflexivity.
Qed.
Theorem binop_constant_values : forall powf atan2f op k f e1 r, is_finite f = true ->
  (forall g, e1 = Some g -> is_finite g = true) -> is_finite k = true ->
  cBinop_k_onMessage powf atan2f op k (Some f) e1 = Ok r ->
  exists v, r = Some v /\ computes powf atan2f op f (match e1 with Some g => g | None => k end) v.
Proof.
  intros powf atan2f op k f e1 r F G K. cbn [cBinop_k_onMessage].
  destruct (perform_op _ _ _ _ _) as [v| |] eqn:P; cbn [obind]; try discriminate. intro E. injection E as <-.
  exists v. split; auto. apply value; auto. destruct e1; auto.
Qed.
(** A history: set the operand to 5, ask 3 < 5, then ask 9 with a new operand in the same message. *)
Example binop_history_example : forall p a,
  exists k' o1 o2, binop_run p a LESS_THAN (of_int 1) [Right (Some (of_int 5)); Left (Some (of_int 3)) None; Left (Some (of_int 9)) (Some (of_int 2))]
    = Ok (k', [o1; o2]) /\ is_int o1 1 /\ is_int o2 0.
Proof.
  intros. cbn [binop_run cBinop_onMessage perform_op obind]. do 3 eexists. split; [reflexivity|].
  assert (A : fltb (of_int 3) (of_int 5) = true) by (vm_compute; reflexivity).
  assert (B : fltb (of_int 9) (of_int 2) = false) by (vm_compute; reflexivity).
  rewrite A, B. split; [apply of_int_is_int; lia|split; reflexivity].
Qed.

Lemma half_away x n : round radix2 (FIX_exp 0) (round_mode mode_NA) x = IZR n -> n = ZnearestA x.
Proof.
  intro H. apply eq_IZR. rewrite <- H. unfold round, scaled_mantissa, F2R, cexp, FIX_exp, round_mode. cbn. rewrite !Rmult_1_r. reflexivity.
Qed.
Lemma fix_round rnd x : round radix2 (FIX_exp 0) rnd x = IZR (rnd x).
Proof. unfold round, scaled_mantissa, F2R, cexp, FIX_exp. cbn. rewrite !Rmult_1_r. reflexivity. Qed.

(** C84: unary operators. *)
Theorem unop_computes_value : forall lib op f, is_finite f = true ->
  exists r, cUnop_onMessage lib op (Some f) = [r] /\ unop_computes lib op f r.
Proof.
  intros lib op f F. exists (unop_value lib op f). split; [reflexivity|].
  pose proof (fltb_iff fzero f eq_refl F) as L. change (val fzero) with 0 in L.
  destruct op; cbn [unop_computes unop_value]; try reflexivity.
  - unfold equals, fabs. rewrite is_finite_Babs, B2R_Babs. auto.
  - destruct (fltb fzero f).
    + assert (P : 0 < val f) by tauto. split; [|lra]. intros _.
      destruct (Bsqrt_correct 24 128 _ _ mode_NE f) as (A & B & _). rewrite round_nearest in A.
      assert (FB : is_finite (Bsqrt mode_NE f) = true).
      { rewrite B. destruct f as [s| | |[] m e b]; cbn in F; try discriminate; auto. exfalso.
        pose proof (sign_neg (B754_finite true m e b) eq_refl eq_refl). lra. }
      assert (SM : Rabs (nearest (sqrt (val f))) < bpow radix2 128).
      { rewrite <- A. apply abs_B2R_lt_emax. }
      split; [intros _; auto|intro; lra].
    + assert (~ 0 < val f) by (intro H; apply L in H; discriminate). split; [tauto|]. intros _. apply zero_zero.
  - destruct (fltb fzero f).
    + assert (P : 0 < val f) by tauto. split; [auto|lra].
    + assert (~ 0 < val f) by (intro H; apply L in H; discriminate). split; [tauto|]. intros _. apply zero_zero.
  - destruct (fltb fzero f).
    + assert (P : 0 < val f) by tauto. split; [|lra]. intros _ FL.
      destruct (dyadic_exact 12102203 (-23)) as [D1 D2]; [lia|lia|].
      pose proof (mul_rounds log2e (lib LOG f) D2 FL) as M. unfold log2e in M at 1. rewrite D1 in M.
      replace (IZR 12102203 * bpow radix2 (-23)) with (12102203 / 8388608) in M by (cbn; lra). exact M.
    + assert (~ 0 < val f) by (intro H; apply L in H; discriminate). split; [tauto|]. intros _. apply zero_zero.
  - destruct (fltb fzero f).
    + assert (P : 0 < val f) by tauto. split; [|lra]. intros _ FL.
      destruct (dyadic_exact 14572505 (-25)) as [D1 D2]; [lia|lia|].
      pose proof (mul_rounds log10e (lib LOG f) D2 FL) as M. unfold log10e in M at 1. rewrite D1 in M.
      replace (IZR 14572505 * bpow radix2 (-25)) with (14572505 / 33554432) in M by (cbn; lra). exact M.
    + assert (~ 0 < val f) by (intro H; apply L in H; discriminate). split; [tauto|]. intros _. apply zero_zero.
  - destruct (Bnearbyint_correct 24 128 _ mode_UP f) as (A & B & _). rewrite fix_round in A. split; [rewrite B; auto|exact A].
  - destruct (Bnearbyint_correct 24 128 _ mode_DN f) as (A & B & _). rewrite fix_round in A. split; [rewrite B; auto|exact A].
  - destruct (Bnearbyint_correct 24 128 _ mode_NA f) as (A & B & _). rewrite fix_round in A. cbn [round_mode] in A.
    exists (ZnearestA (val f)). split; [split; [rewrite B; auto|exact A]|].
    split; [apply Znearest_half|].
    set (x := val f). intro H. unfold ZnearestA, Znearest in *.
    pose proof (Zfloor_lb x) as FL. pose proof (Zfloor_ub x) as FU.
    destruct (Rcompare_spec (x - IZR (Zfloor x)) (/ 2)) as [C|C|C].
    + rewrite Rabs_pos_eq in H by lra. lra.
    + assert (CE : Zceil x = (Zfloor x + 1)%Z) by (apply Zceil_floor_neq; lra).
      destruct (Z.leb_spec 0 (Zfloor x)) as [D|D].
      * rewrite CE, plus_IZR. assert (0 <= IZR (Zfloor x)) by (apply IZR_le; auto).
        rewrite !Rabs_pos_eq by lra. lra.
      * assert (IZR (Zfloor x) <= -1) by (apply IZR_le; lia). rewrite !Rabs_left1 by lra. lra.
    + assert (CE : Zceil x = (Zfloor x + 1)%Z) by (apply Zceil_floor_neq; lra).
      rewrite CE, plus_IZR in H. rewrite Rabs_left1 in H by lra. lra.
Qed.
Example unop_example : forall lib, exists r, cUnop_onMessage lib ROUND (Some (fdyadic (-5) (-1))) = [r] /\ is_int r (-3).
Proof.
  intro lib. eexists. split; [reflexivity|].
  assert (E : unop_value lib ROUND (fdyadic (-5) (-1)) = of_int (-3)) by (apply B2SF_inj; vm_compute; reflexivity).
  rewrite E. apply of_int_is_int. lia.
Qed.

Print Assumptions binop_computes.
Print Assumptions binop_history_values.
Print Assumptions binop_constant_values.
Print Assumptions unop_computes_value.
