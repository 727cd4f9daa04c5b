From Verif Require Import SndModel SndSpec SndProofs SndProofs2 Float32Facts.
From Flocq Require Import Core.
From Coq Require Import Reals Lia Lra ZifyBool.
Local Open Scope Z_scope.
Open Scope R_scope.
(** The order of the numbers and infinities. *)
Definition ext (x : f32) : R := match x with B754_infinity s => if s then - bpow radix2 128 else bpow radix2 128 | _ => R32 x end.
Lemma finite_lt x : is_finite x = true -> - bpow radix2 128 < R32 x < bpow radix2 128.
Proof. intros _. apply Rabs_lt_inv, abs_B2R_lt_emax. Qed.
Lemma ext_finite x : is_finite x = true -> ext x = R32 x.
Proof. destruct x; auto; discriminate. Qed.
Lemma big_pos : 0 < bpow radix2 128. Proof. apply bpow_gt_0. Qed.
Lemma ext_compare x y : is_nan x = false -> is_nan y = false -> Bcompare x y = Some (Rcompare (ext x) (ext y)).
Proof.
  intros Nx Ny. pose proof big_pos as B.
  destruct (is_finite x) eqn:Fx; [destruct (is_finite y) eqn:Fy|].
  - rewrite !ext_finite by auto. apply Bcompare_correct; auto.
  - pose proof (finite_lt x Fx). rewrite (ext_finite x Fx).
    destruct y as [t|t| |t m e H0]; try discriminate.
    destruct t; cbn [ext]; [rewrite Rcompare_Gt by lra|rewrite Rcompare_Lt by lra]; destruct x as [t'|t'| |t' m' e' H']; try discriminate; try reflexivity;
      destruct t'; reflexivity.
  - destruct x as [t|t| |t m e H0]; try discriminate.
    destruct (is_finite y) eqn:Fy.
    + pose proof (finite_lt y Fy). rewrite (ext_finite y Fy).
      destruct t; cbn [ext]; [rewrite Rcompare_Lt by lra|rewrite Rcompare_Gt by lra]; destruct y as [t'|t'| |t' m' e' H']; try discriminate; try reflexivity;
      destruct t'; reflexivity.
    + destruct y as [t'|t'| |t' m' e' H']; try discriminate.
      destruct t, t'; cbn [ext]; first [rewrite Rcompare_Eq by lra|rewrite Rcompare_Lt by lra|rewrite Rcompare_Gt by lra]; reflexivity.
Qed.
Lemma ltb_ext x y : is_nan x = false -> is_nan y = false -> fltb x y = Rlt_bool (ext x) (ext y).
Proof. intros A B. pose proof (ext_compare x y A B) as C. unfold fltb, Bltb, SpecFloat.SFltb, Bcompare in *. rewrite C. unfold Rlt_bool. destruct (Rcompare _ _); auto. Qed.
Lemma leb_ext x y : is_nan x = false -> is_nan y = false -> fleb x y = Rle_bool (ext x) (ext y).
Proof. intros A B. pose proof (ext_compare x y A B) as C. unfold fleb, Bleb, SpecFloat.SFleb, Bcompare in *. rewrite C. unfold Rle_bool. destruct (Rcompare _ _); auto. Qed.
Lemma eqb_ext x y : is_nan x = false -> is_nan y = false -> feqb x y = Req_bool (ext x) (ext y).
Proof. intros A B. pose proof (ext_compare x y A B) as C. unfold feqb, Beqb, SpecFloat.SFeqb, Bcompare in *. rewrite C. unfold Req_bool. destruct (Rcompare _ _); auto. Qed.
Ltac cases_ext := repeat match goal with
  | |- context [Rlt_bool ?a ?b] => destruct (Rlt_bool_spec a b)
  | |- context [Rle_bool ?a ?b] => destruct (Rle_bool_spec a b)
  end.
(** [m] picks the lesser, or the greater, of two numbers. *)
Definition picks_min (m : f32 -> f32 -> f32) := forall x y, is_nan x = false -> is_nan y = false -> is_nan (m x y) = false /\ ext (m x y) = Rmin (ext x) (ext y).
Definition picks_max (m : f32 -> f32 -> f32) := forall x y, is_nan x = false -> is_nan y = false -> is_nan (m x y) = false /\ ext (m x y) = Rmax (ext x) (ext y).
Lemma min_x86_ok : picks_min min_x86.
Proof. intros x y A B. unfold min_x86. rewrite ltb_ext by auto. destruct (Rlt_bool_spec (ext x) (ext y)); (split; [auto|]); unfold Rmin; destruct (Rle_dec _ _); lra. Qed.
Lemma max_x86_ok : picks_max max_x86.
Proof. intros x y A B. unfold max_x86. rewrite ltb_ext by auto. destruct (Rlt_bool_spec (ext y) (ext x)); (split; [auto|]); unfold Rmax; destruct (Rle_dec _ _); lra. Qed.
Lemma fmin_ok : picks_min fmin.
Proof. intros x y A B. unfold fmin. rewrite A, B, ltb_ext by auto. destruct (Rlt_bool_spec (ext y) (ext x)); (split; [auto|]); unfold Rmin; destruct (Rle_dec _ _); lra. Qed.
Lemma fmax_ok : picks_max fmax.
Proof. intros x y A B. unfold fmax. rewrite A, B, ltb_ext by auto. destruct (Rlt_bool_spec (ext x) (ext y)); (split; [auto|]); unfold Rmax; destruct (Rle_dec _ _); lra. Qed.
Lemma neon_zero (f : f32 -> f32 -> f32) (g : bool -> bool -> bool) x y :
  (match x, y with B754_zero s, B754_zero s' => B754_zero (g s s') | _, _ => f x y end : f32) = f x y \/
  (exists s, x = B754_zero s) /\ (exists s, y = B754_zero s) /\
  exists s, (match x, y with B754_zero s, B754_zero s' => B754_zero (g s s') | _, _ => f x y end : f32) = B754_zero s.
Proof. destruct x; auto. destruct y; auto. right. eauto 10. Qed.
Lemma min_neon_ok : picks_min min_neon.
Proof.
  intros x y A B. unfold min_neon. rewrite A, B. cbn [orb].
  destruct (neon_zero (fun x y => if fltb x y then x else y) orb x y) as [E|((s & ->) & (s' & ->) & t & E)].
  - rewrite E. apply min_x86_ok; auto.
  - split; auto. cbn. unfold Rmin. destruct (Rle_dec 0 0); auto.
Qed.
Lemma max_neon_ok : picks_max max_neon.
Proof.
  intros x y A B. unfold max_neon. rewrite A, B. cbn [orb].
  destruct (neon_zero (fun x y => if fltb y x then x else y) andb x y) as [E|((s & ->) & (s' & ->) & t & E)].
  - rewrite E. apply max_x86_ok; auto.
  - split; auto. cbn. unfold Rmax. destruct (Rle_dec 0 0); auto.
Qed.
Lemma req_true a b : Req_bool a b = true <-> a = b.
Proof. destruct (Req_bool_spec a b); intuition discriminate. Qed.
Lemma rlt_true a b : Rlt_bool a b = true <-> a < b.
Proof. destruct (Rlt_bool_spec a b); intuition (discriminate || lra). Qed.
Lemma rle_true a b : Rle_bool a b = true <-> a <= b.
Proof. destruct (Rle_bool_spec a b); intuition (discriminate || lra). Qed.
Lemma limited_ok mn mx lo hi x : picks_min mn -> picks_max mx -> is_nan x = false -> is_nan lo = false -> is_nan hi = false -> fleb lo hi = true ->
  limited lo hi x (mx (mn x hi) lo).
Proof.
  intros A B Nx Nl Nh L. destruct (A x hi Nx Nh) as [N1 E1]. destruct (B (mn x hi) lo N1 Nl) as [N2 E2].
  rewrite leb_ext, rle_true in L by auto.
  unfold limited. rewrite !eqb_ext, !ltb_ext, !leb_ext, !req_true, !rlt_true, !rle_true by auto. rewrite E2, E1.
  unfold Rmin, Rmax. repeat split; intros; destruct (Rle_dec (ext x) (ext hi)); destruct (Rle_dec _ _); lra.
Qed.
Local Open Scope Z_scope.
Lemma sqrt_pos x : fltb fzero x = true -> feqb (Bsqrt mode_NE x) fzero = false.
Proof.
  intro P. destruct x as [s|s| |s m e H]; try discriminate; destruct s; try discriminate; [reflexivity|].
  set (x := B754_finite false m e H) in *.
  destruct (Bsqrt_correct 24 128 _ _ mode_NE x) as (A & B & _). cbn [x is_finite] in B.
  assert (Z : (bpow radix2 (-75) <= R32 (Bsqrt mode_NE x))%R).
  { rewrite A. apply round_ge_generic; [apply fexp_correct; reflexivity|apply valid_rnd_N|apply generic_format_bpow; cbv; discriminate|].
    rewrite <- (sqrt_Rsqr (bpow radix2 (-75))) by apply bpow_ge_0. apply sqrt_le_1_alt. unfold Rsqr. rewrite <- bpow_plus.
    apply Rle_trans with (bpow radix2 (-149)); [apply bpow_le; lia|].
    pose proof (bounded_cases m e H) as C. cbn [x B2R cond_Zopp]. rewrite <- F2R_bpow. apply Rle_trans with (F2R (Float radix2 1 e)).
    - rewrite !F2R_bpow. apply bpow_le. lia.
    - apply F2R_le. lia. }
  pose proof (bpow_gt_0 radix2 (-75)). destruct (feqb (Bsqrt mode_NE x) fzero) eqn:Q; auto.
  unfold feqb in Q. rewrite Beqb_correct in Q; [|rewrite B; reflexivity|reflexivity]. apply req_true in Q. change (R32 fzero) with 0%R in Q. lra.
Qed.
Ltac run_patch := cbv -[enc of_bits fadd fsub fmul fdiv fone fzero fabs feqb fltb fleb fmin fmax min_x86 min_neon max_x86 max_neon Bnearbyint Bsqrt Bopp fma32 decimal
  hv_abs hv_neg hv_min hv_max hv_div hv_sqrt hv_fma hv_fms hv_compare hv_and hv_or hv_andnot hv_cast_fi hv_log2 hv_tabread hv_math t_nan t_arch Z.add u32 of_int zlen].
Section Machine.
Variable M : machine.
Hypothesis OK : machine_ok M.
Notation F := (enc (t_nan M)).
Notation V := of_bits.
Lemma clip_eval x lo hi : snd_out M clip_sig [F x; F lo; F hi] 0 = Ok (hv_max M (hv_min M (F x) (F hi)) (F lo)).
Proof. run_patch. reflexivity. Qed.
Lemma wrap_eval x : snd_out M wrap_sig [F x] 0 = Ok (F (fsub (V (F x)) (V (F (Bnearbyint mode_DN (V (F x))))))).
Proof. run_patch. reflexivity. Qed.
Lemma sqrt_eval x : snd_out M sqrt_sig [F x] 0 = hv_and M (hv_compare M Gt (F x) (F fzero)) (hv_sqrt M (F x)).
Proof. run_patch. reflexivity. Qed.

Lemma clip_ok x lo hi : is_nan x = false -> is_nan lo = false -> is_nan hi = false -> fleb lo hi = true ->
  exists y, shows_sample M clip_sig [x; lo; hi] y /\ limited lo hi x y.
Proof.
  intros. eexists. split; [eexists; split; [apply clip_eval|reflexivity]|].
  unfold hv_max, hv_min. rewrite !(vf M OK).
  destruct (t_arch M); apply limited_ok; auto using min_x86_ok, max_x86_ok, min_neon_ok, max_neon_ok, fmin_ok, fmax_ok.
Qed.
Lemma clip_nan lo hi : is_nan lo = false -> is_nan hi = false -> fleb lo hi = true ->
  exists y, shows_sample M clip_sig [B754_nan; lo; hi] y /\ (if match t_arch M with Neon7 | Neon8 => true | _ => false end then y = B754_nan else feqb y hi = true).
Proof.
  intros Nl Nh L. eexists. split; [eexists; split; [apply clip_eval|reflexivity]|].
  unfold hv_max, hv_min. rewrite !(vf M OK). destruct (t_arch M); auto.
  - change (min_x86 B754_nan hi) with hi. destruct (max_x86_ok hi lo Nh Nl) as [A B]. rewrite eqb_ext, req_true, B by auto.
    rewrite leb_ext, rle_true in L by auto. unfold Rmax. destruct (Rle_dec _ _); lra.
  - change (min_x86 B754_nan hi) with hi. destruct (max_x86_ok hi lo Nh Nl) as [A B]. rewrite eqb_ext, req_true, B by auto.
    rewrite leb_ext, rle_true in L by auto. unfold Rmax. destruct (Rle_dec _ _); lra.
  - change (fmin B754_nan hi) with hi. destruct (fmax_ok hi lo Nh Nl) as [A B]. rewrite eqb_ext, req_true, B by auto.
    rewrite leb_ext, rle_true in L by auto. unfold Rmax. destruct (Rle_dec _ _); lra.
Qed.
Lemma abs_eval x : snd_out M abs_sig [F x] 0 = Ok (hv_abs M (F x)).
Proof. run_patch. reflexivity. Qed.
Lemma abs_ok x : shows_sample M abs_sig [x] (fabs x).
Proof. eexists. split; [apply abs_eval|]. rewrite v_abs by (auto; apply fw; auto). rewrite vf; auto. Qed.
Lemma sqrt_ok x : ~ neon M -> shows_sample M sqrt_sig [x] (if fltb fzero x then Bsqrt mode_NE x else fzero).
Proof.
  intro N. unfold shows_sample. cbn [map]. rewrite sqrt_eval. unfold hv_and, hv_compare, hv_sqrt. rewrite !vf by auto. cbn [compare].
  unfold neon in N. destruct (t_arch M); try (exfalso; intuition congruence).
  - rewrite land_mask by (apply fw; auto). destruct (fltb fzero x); (eexists; split; [reflexivity|]); [apply vf; auto|reflexivity].
  - rewrite land_mask by (apply fw; auto). destruct (fltb fzero x); (eexists; split; [reflexivity|]); [apply vf; auto|reflexivity].
  - destruct (fltb fzero x) eqn:P; rewrite !vf by auto.
    + change (feqb fone fzero) with false. change (feqb fone fone) with true. cbn [orb].
      rewrite (sqrt_pos x P). eexists. split; [reflexivity|]. apply vf; auto.
    + change (feqb fzero fzero) with true. cbn [orb]. eexists. split; [reflexivity|]. apply vf; auto.
Qed.
End Machine.
