(** Signal objects on every build. *)
From Verif Require Import SndModel SndSpec SndProofs SndProofs2 SndProofs3 SndProofs4 SndProofs5 SndProofs9 SndProofs10 SndProofs11 SndProofs12 SndProofs13 SndProofs14 Float32Facts.
From Flocq Require Import Core.
From Coq Require Import Reals Lra Lia.
Local Open Scope Z_scope.

(** C145: clip~ limits every number, on every build. *)
Theorem clip_limits : forall M x lo hi, machine_ok M -> is_nan x = false -> is_nan lo = false -> is_nan hi = false -> fleb lo hi = true ->
  exists y, shows_sample M clip_sig [x; lo; hi] y /\ limited lo hi x y.
Proof. intros. apply clip_ok; auto. Qed.
(** C146: on NEON a NaN passes; elsewhere it becomes the upper bound. *)
Theorem clip_limits_refuted : forall M lo hi, machine_ok M -> neon M -> is_nan lo = false -> is_nan hi = false -> fleb lo hi = true ->
  shows_sample M clip_sig [B754_nan; lo; hi] B754_nan.
Proof.
  intros M lo hi OK N A B L. destruct (clip_nan M OK lo hi A B L) as (y & S & C).
  destruct N as [H|H]; rewrite H in C; subst y; exact S.
Qed.
Theorem clip_nan_bounded : forall M lo hi, machine_ok M -> ~ neon M -> is_nan lo = false -> is_nan hi = false -> fleb lo hi = true ->
  exists y, shows_sample M clip_sig [B754_nan; lo; hi] y /\ feqb y hi = true.
Proof.
  intros M lo hi OK N A B L. destruct (clip_nan M OK lo hi A B L) as (y & S & C). exists y. split; auto.
  unfold neon in N. destruct (t_arch M); auto; exfalso; auto.
Qed.

(** C147: wrap~ gives the fractional part, up to rounding, and stays between 0 and 1. *)
Theorem wrap_fraction : forall M x, machine_ok M -> is_finite x = true ->
  exists y, shows_sample M wrap_sig [x] y /\ (0 <= real y <= 1)%R /\ within (/ 33554432) y (fractional (real x)).
Proof. intros. apply wrap_ok; auto. Qed.
(** C148: but 1 is reached. *)
Theorem wrap_below_one_refuted : forall M, machine_ok M ->
  ~ (forall x y, is_finite x = true -> shows_sample M wrap_sig [x] y -> fltb y fone = true).
Proof.
  intros M OK H. specialize (H (fdyadic (-1) (-30)) fone eq_refl (wrap_one M OK)). vm_compute in H. discriminate.
Qed.

(** C149: abs~ is the absolute value of every sample, on every build. *)
Theorem abs_everywhere : forall M x, machine_ok M -> shows_sample M abs_sig [x] (fabs x).
Proof. intros. apply abs_ok; auto. Qed.

(** C150: dividing by zero gives 0; other quotients are rounded correctly, on AVX, on SSE and without SIMD. *)
Theorem division_by_zero : forall M x y, machine_ok M -> feqb y fzero = true -> shows_sample M (binop_sig Div) [x; y] fzero.
Proof. intros. apply div_zero; auto. Qed.
Theorem division_rounds : forall M x y, machine_ok M -> ~ neon M -> feqb y fzero = false -> shows_sample M (binop_sig Div) [x; y] (fdiv x y).
Proof. intros. apply div_exact; auto. Qed.
(** C151: on NEON the quotient is only right to within a part in 300. *)
Theorem division_neon_close : forall M x y, machine_ok M -> neon M -> is_finite x = true -> is_finite y = true ->
  (bpow radix2 (-128) <= Rabs (real y))%R -> (Rabs (real x / real y) <= bpow radix2 120)%R ->
  exists z, shows_sample M (binop_sig Div) [x; y] z /\ within (Rabs (real x / real y) / 300 + bpow radix2 (-149)) z (real x / real y).
Proof. intros. apply div_neon; auto. Qed.
Theorem division_neon_refuted : forall M, machine_ok M -> neon M ->
  exists z, shows_sample M (binop_sig Div) [fone; fone] z /\ z <> fdiv fone fone.
Proof. intros. apply div_neon_one; auto. Qed.

(** C152: sqrt~ is the root of positive numbers and 0 for the others, on AVX, on SSE and without SIMD. *)
Theorem sqrt_positive : forall M x, machine_ok M -> ~ neon M -> shows_sample M sqrt_sig [x] (if fltb fzero x then Bsqrt mode_NE x else fzero).
Proof. intros. apply sqrt_ok; auto. Qed.
(** C164: on NEON, where the reciprocal root of infinity is zero, the root of infinity is not a number. *)
Theorem sqrt_neon_refuted : forall M, machine_ok M -> neon M -> (exists s, t_rsqrte M (B754_infinity false) = B754_zero s) ->
  shows_sample M sqrt_sig [B754_infinity false] B754_nan.
Proof. intros. apply sqrt_inf; auto. Qed.

(** C153: cos~ is the cosine of every finite sample, to within 1/100000, on every build. *)
Theorem cos_close : forall M x, machine_ok M -> is_finite x = true ->
  exists y, shows_sample M cos_sig [x] y /\ within (/ 100000) y (cos (2 * PI * real x)).
Proof. intros. apply cos_ok; auto. Qed.
(** C154: osc~ is the cosine of its phase, to within 1/1000. *)
Theorem osc_close : forall M x, machine_ok M -> is_finite x = true -> (0 <= real x <= 1)%R ->
  exists y, shows_sample M osc_sig [x] y /\ within (/ 1000) y (cos (2 * PI * real x)).
Proof. intros. apply osc_ok; auto. Qed.

(** C155: ftom~ and rmstodb~ on SSE and NEON. *)
Theorem ftom_close : forall M x, machine_ok M -> fast_arch M -> is_finite x = true -> (bpow radix2 (-120) <= real x)%R ->
  exists y, shows_sample M ftom_sig [x] y /\ within 0.53 y (69 + 12 * log_2 (real x / 440)).
Proof. intros. apply ftom_ok; auto. Qed.
Theorem rmstodb_close : forall M x, machine_ok M -> fast_arch M -> is_finite x = true -> (bpow radix2 (-126) <= real x)%R ->
  exists y, shows_sample M rmstodb_sig [x] y /\ within 0.3 y (Rmax (100 + 20 * (ln (real x) / ln 10)) 0).
Proof. intros. apply rmstodb_ok; auto. Qed.
Theorem rmstodb_silence : forall M x, machine_ok M -> fast_arch M -> fleb x fzero = true ->
  exists y, shows_sample M rmstodb_sig [x] y /\ feqb y fzero = true.
Proof. intros. apply rmstodb_zero; auto. Qed.
(** C156: on AVX both stop the program. *)
Theorem logarithm_avx_refuted : forall M x y, machine_ok M -> t_arch M = AVX ->
  ~ shows_sample M ftom_sig [x] y /\ ~ shows_sample M rmstodb_sig [x] y.
Proof.
  intros M x y OK A. destruct (log_avx_fails M x A). split; apply shows_not; auto.
Qed.

(** C157: comparisons give 1 or 0 without SIMD; with SIMD a comparison that holds gives a NaN. *)
Theorem comparison_scalar : forall M op f x y, machine_ok M -> t_arch M = Scalar -> comparison op = Some f ->
  shows_sample M (binop_sig op) [x; y] (if f x y then fone else fzero).
Proof. intros. apply compare_scalar_ok; auto. Qed.
Theorem comparison_simd_refuted : forall M op f x y, machine_ok M -> t_arch M <> Scalar -> comparison op = Some f ->
  is_nan x = false -> is_nan y = false -> f x y = true -> shows_sample M (binop_sig op) [x; y] B754_nan.
Proof. intros M op f x y; intros. apply (compare_simd M ltac:(assumption) op f); auto. Qed.

(** C158: the functions of the C library work without SIMD only. *)
Theorem functions_scalar : forall M f x, machine_ok M -> t_arch M = Scalar -> shows_sample M (unop_sig (Math f)) [x] (f x).
Proof. intros. apply math_scalar; auto. Qed.
Theorem functions_simd_refuted : forall M f x y, machine_ok M -> t_arch M <> Scalar -> ~ shows_sample M (unop_sig (Math f)) [x] y.
Proof. intros. apply shows_not. apply math_simd; auto. Qed.

(** C159: tabread~ shows a sample of the table, whatever its input. *)
Theorem tabread_in_table : forall M t x, machine_ok M -> 1 <= zlen t <= 16777216 -> exists y, shows_sample M (tabread_sig t) [x] y /\ In y t.
Proof. intros. apply tabread_any; auto. Qed.
(** C160: it drops the fraction of the position on NEON and without SIMD; on AVX and SSE it takes the nearest sample. *)
Theorem tabread_truncates : forall M t x, machine_ok M -> 1 <= zlen t <= 16777216 -> is_finite x = true -> t_arch M <> AVX -> t_arch M <> SSE ->
  shows_sample M (tabread_sig t) [x] (sample t (Zfloor (position (zlen t - 1) x))).
Proof.
  intros M t x OK H F A B. pose proof (tabread_at M OK t x H F) as S. unfold x86 in S. destruct (t_arch M); auto; exfalso; auto.
Qed.
Theorem tabread_rounds_refuted : forall M, machine_ok M -> t_arch M = AVX \/ t_arch M = SSE ->
  exists t x, 1 <= zlen t <= 16777216 /\ is_finite x = true /\ ~ shows_sample M (tabread_sig t) [x] (sample t (Zfloor (position (zlen t - 1) x))).
Proof.
  intros M OK A. exists [fzero; fone], x75. destruct x75_R as [R F]. split; [cbn; lia|]. split; auto. intro S.
  assert (X : x86 M = true) by (unfold x86; destruct A as [-> | ->]; reflexivity).
  pose proof (shows_unique _ _ _ _ _ S (tabread_x86 M OK X)) as E.
  replace (position (zlen [fzero; fone] - 1) x75) with (3 / 4)%R in E.
  - replace (Zfloor (3 / 4)) with 0 in E by (symmetry; apply Zfloor_imp; cbn; lra). apply (f_equal B2SF) in E. vm_compute in E. discriminate.
  - unfold position. rewrite R. change (IZR (zlen [fzero; fone] - 1)) with 1%R. unfold Rmin, Rmax. destruct (Rle_dec (3 / 4) 1); [|lra]. destruct (Rle_dec (3 / 4) 0); lra.
Qed.

(** C161: tabread4~ interpolates between two neighbouring samples. *)
Theorem tabread4_interpolates : forall M t x, machine_ok M -> 2 <= zlen t <= 16777216 -> is_finite x = true ->
  (forall y, In y t -> is_finite y = true /\ (Rabs (real y) <= 1)%R) ->
  let p := position (zlen t - 2) x in let i := Zfloor p in
  0 <= i < zlen t - 1 /\
  exists y, shows_sample M (tabread4_sig t) [x] y /\
  within (/ 1000000) y (real (sample t i) + (real (sample t (i + 1)) - real (sample t i)) * (p - IZR i)).
Proof. intros. apply tabread4_ok; auto. Qed.
Theorem tabread4_in_table : forall M t x, machine_ok M -> 2 <= zlen t <= 16777216 -> exists y, shows_sample M (tabread4_sig t) [x] y.
Proof. intros. apply tabread4_any; auto. Qed.
(** C162: a table of one sample stops the program. *)
Theorem tabread4_one_refuted : forall M v x y, machine_ok M -> is_nan x = false -> ~ shows_sample M (tabread4_sig [v]) [x] y.
Proof. intros. apply shows_not. apply tabread4_one; auto. Qed.

(** C163: the output of lop~ never exceeds 1 if its input does not. *)
Theorem lop_stays_bounded : forall l ym, is_finite ym = true -> (Rabs (real ym) <= 1)%R ->
  (forall k x, In (k, x) l -> is_finite k = true /\ (0 <= real k <= 1)%R /\ is_finite x = true /\ (Rabs (real x) <= 1)%R) ->
  forall y, In y (lop_run ym l) -> is_finite y = true /\ (Rabs (real y) <= 1)%R.
Proof.
  intros l ym F B H y I. assert (A : Forall unit_f (lop_run ym l)).
  { apply lop_all; [split; auto|]. apply Forall_forall. intros [k x] J. destruct (H k x J) as (A1 & A2 & A3 & A4). cbn [fst snd]. split; [auto|]. split; [exact A2|]. split; auto. }
  rewrite Forall_forall in A. apply A. auto.
Qed.

Print Assumptions clip_limits.
Print Assumptions clip_limits_refuted.
Print Assumptions clip_nan_bounded.
Print Assumptions wrap_fraction.
Print Assumptions wrap_below_one_refuted.
Print Assumptions abs_everywhere.
Print Assumptions division_by_zero.
Print Assumptions division_rounds.
Print Assumptions division_neon_close.
Print Assumptions division_neon_refuted.
Print Assumptions sqrt_positive.
Print Assumptions sqrt_neon_refuted.
Print Assumptions cos_close.
Print Assumptions osc_close.
Print Assumptions ftom_close.
Print Assumptions rmstodb_close.
Print Assumptions rmstodb_silence.
Print Assumptions logarithm_avx_refuted.
Print Assumptions comparison_scalar.
Print Assumptions comparison_simd_refuted.
Print Assumptions functions_scalar.
Print Assumptions functions_simd_refuted.
Print Assumptions tabread_in_table.
Print Assumptions tabread_truncates.
Print Assumptions tabread_rounds_refuted.
Print Assumptions tabread4_interpolates.
Print Assumptions tabread4_in_table.
Print Assumptions tabread4_one_refuted.
Print Assumptions lop_stays_bounded.

(** Machines of every kind meet the hypotheses. *)
Example machines : forall a f, machine_ok (pc a f).
Proof. exact pc_ok. Qed.
Example neons : neon (pc Neon7 false) /\ neon (pc Neon8 true) /\ ~ neon (pc AVX true) /\ fast_arch (pc SSE false).
Proof. unfold fast_arch, neon. cbn. intuition discriminate. Qed.
(** The sample after clip~ -1 1 of 0.75 and of 3; abs~ of -3; 1 / 0; the root of -3. *)
Example clip_example : exists y, shows_sample (pc SSE false) clip_sig [x75; of_int (-1); fone] y /\ limited (of_int (-1)) fone x75 y.
Proof. apply clip_limits; [apply pc_ok|reflexivity..|vm_compute; reflexivity]. Qed.
Example neg_root : shows_sample (pc AVX false) sqrt_sig [of_int (-3)] fzero.
Proof. apply (sqrt_positive (pc AVX false) (of_int (-3))); [apply pc_ok|unfold neon; cbn; intuition discriminate]. Qed.
Example nan_sqrt : t_rsqrte (pc Neon8 false) (B754_infinity false) = B754_zero false.
Proof. reflexivity. Qed.
(** cos~ of 0.75 is near 0, of 0 near 1. *)
Example cos_0 : exists y, shows_sample (pc AVX true) cos_sig [fzero] y /\ within (/ 100000) y 1.
Proof.
  destruct (cos_close (pc AVX true) fzero (pc_ok _ _) eq_refl) as (y & S & W). exists y. split; auto.
  change (real fzero) with 0%R in W. rewrite Rmult_0_r, cos_0 in W. exact W.
Qed.
Example osc_0 : exists y, shows_sample (pc Neon7 false) osc_sig [x75] y.
Proof.
  destruct x75_R as [A B]. destruct (osc_close (pc Neon7 false) x75 (pc_ok _ _) B) as (y & S & W); [rewrite A; lra|]. eauto.
Qed.
(** ftom~ of 1 Hz on SSE. *)
Example ftom_1 : exists y, shows_sample (pc SSE false) ftom_sig [fone] y.
Proof.
  destruct one_R as [A B]. destruct (ftom_close (pc SSE false) fone) as (y & S & _); [apply pc_ok|unfold fast_arch; auto|auto| |eauto].
  unfold real. rewrite A. change 1%R with (bpow radix2 0). apply bpow_le. lia.
Qed.
Example table_4 : forall M, machine_ok M -> exists y, shows_sample M (tabread4_sig [fzero; fone; x75; fone]) [x75] y.
Proof. intros M OK. apply tabread4_in_table; auto. cbn. lia. Qed.
Example lop_1 : lop_run fzero [(fone, fone); (fzero, fone)] = [lop_step fzero fone fone; lop_step (lop_step fzero fone fone) fzero fone].
Proof. reflexivity. Qed.
Example greater : comparison Gt <> None /\ fltb fzero fone = true.
Proof. split; [discriminate|reflexivity]. Qed.
