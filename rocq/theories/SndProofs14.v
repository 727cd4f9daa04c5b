(** Witnesses against claims that do not hold on every build; comparisons. *)
From Verif Require Import SndModel SndSpec SndProofs SndProofs2 SndProofs3 SndProofs4 SndProofs5 SndProofs6 SndProofs8 SndProofs9 SndProofs12 Float32Facts.
From Flocq Require Import Core.
From Coq Require Import Reals Lia Lra.
Local Open Scope Z_scope.
Lemma pc_ok a f : machine_ok (pc a f).
Proof. split; [change (2 ^ 32) with 4294967296; cbn [pc t_nan]; lia|vm_compute; reflexivity]. Qed.
Lemma shows_unique M p xs y z : shows_sample M p xs y -> shows_sample M p xs z -> y = z.
Proof. intros (v & A & B) (w & C & D). congruence. Qed.
Lemma shows_not M p xs y : snd_out M p (map (enc (t_nan M)) xs) 0 = AssertFail -> ~ shows_sample M p xs y.
Proof. intros A (v & B & _). congruence. Qed.
Section Machine.
Variable M : machine.
Hypothesis OK : machine_ok M.
Notation F := (enc (t_nan M)).
Lemma compare_eval op x y : comparison op <> None -> snd_out M (binop_sig op) [F x; F y] 0 = Ok (hv_compare M op (F x) (F y)).
Proof. destruct op; intro H; try (exfalso; apply H; reflexivity); run_patch; reflexivity. Qed.
Lemma compare_is op f x y : comparison op = Some f -> compare op x y = f x y.
Proof. destruct op; intro H; inversion H; reflexivity. Qed.
Lemma compare_scalar_ok op f x y : t_arch M = Scalar -> comparison op = Some f ->
  shows_sample M (binop_sig op) [x; y] (if f x y then fone else fzero).
Proof.
  intros A C. eexists. split; [apply compare_eval; congruence|]. unfold hv_compare. rewrite A, vf, !vf by auto. rewrite (compare_is op f) by auto. reflexivity.
Qed.
Lemma compare_simd op f x y : t_arch M <> Scalar -> comparison op = Some f -> is_nan x = false -> is_nan y = false -> f x y = true ->
  shows_sample M (binop_sig op) [x; y] B754_nan.
Proof.
  intros A C Nx Ny T. eexists. split; [apply compare_eval; congruence|]. unfold hv_compare. rewrite !vf by auto. rewrite (compare_is op f), T, Nx, Ny by auto.
  destruct (t_arch M); try (exfalso; apply A; reflexivity); destruct op; vm_compute; reflexivity.
Qed.
Lemma math_simd f x : t_arch M <> Scalar -> snd_out M (unop_sig (Math f)) [F x] 0 = AssertFail.
Proof. intro A. run_patch. unfold hv_math. destruct (t_arch M); try reflexivity. exfalso; apply A; reflexivity. Qed.
Lemma math_scalar f x : t_arch M = Scalar -> shows_sample M (unop_sig (Math f)) [x] (f x).
Proof. 
  intro A. exists (F (f x)). split; [|apply vf; auto]. cbn [map].
  assert (E : snd_out M (unop_sig (Math f)) [F x] 0 = hv_math M f (F x)) by (run_patch; destruct (hv_math M f _); reflexivity).
  rewrite E. unfold hv_math. rewrite A, vf by auto. reflexivity.
Qed.
Lemma sqrt_inf : neon M -> (exists s, t_rsqrte M (B754_infinity false) = B754_zero s) -> shows_sample M sqrt_sig [B754_infinity false] B754_nan.
Proof.
  intros N (s & R). unfold shows_sample. cbn [map]. rewrite sqrt_eval.
  assert (S : hv_sqrt M (F (B754_infinity false)) = F B754_nan).
  { unfold hv_sqrt. rewrite vf by auto. destruct N as [-> | ->]; rewrite R; f_equal; destruct (t_rsqrts M _ _) as [t|t| |t m e H]; destruct s; try destruct t; reflexivity. }
  rewrite S. unfold hv_and, hv_compare. rewrite !vf by auto. change (compare Gt (B754_infinity false) fzero) with true.
  eexists. split; [destruct N as [-> | ->]; reflexivity|]. rewrite land_mask by (apply fw; auto). apply vf; auto.
Qed.
End Machine.
Lemma wrap_one M : machine_ok M -> shows_sample M wrap_sig [fdyadic (-1) (-30)] fone.
Proof.
  intro OK. eexists. split; [apply wrap_eval|]. rewrite !vf by auto. apply B2SF_inj. vm_compute. reflexivity.
Qed.
Lemma div_neon_one M : machine_ok M -> neon M -> exists z, shows_sample M (binop_sig Div) [fone; fone] z /\ z <> fdiv fone fone.
Proof.
  intros OK N. exists (fmul fone (vrecpe fone)). split.
  - eexists. split; [apply binop_eval; exact I|]. unfold hv_div. rewrite !vf by auto. change (feqb fone fzero) with false.
    destruct N as [-> | ->]; rewrite ldiff_mask by (apply fw; auto); apply vf; auto.
  - intro E. apply (f_equal B2SF) in E. vm_compute in E. discriminate.
Qed.
(** 0.75 *)
Definition x75 : f32 := fdyadic 3 (-2).
Lemma x75_R : real x75 = (3 / 4)%R /\ is_finite x75 = true.
Proof. unfold real, x75. destruct (dyadic_exact 3 (-2) ltac:(cbn; lia) ltac:(lia)) as [A B]. rewrite A. split; auto. Qed.
Lemma tabread_x86 M : machine_ok M -> x86 M = true -> shows_sample M (tabread_sig [fzero; fone]) [x75] fone.
Proof.
  intros OK X. destruct x75_R as [A B]. pose proof (tabread_at M OK [fzero; fone] x75 ltac:(cbn; lia) B) as S. rewrite X in S.
  replace (position (zlen [fzero; fone] - 1) x75) with (3 / 4)%R in S.
  - replace (ZnearestE (3 / 4)) with 1 in S; [exact S|]. symmetry. apply Znearest_imp. apply Rabs_def1; lra.
  - unfold position. rewrite A. change (IZR (zlen [fzero; fone] - 1)) with 1%R. unfold Rmin, Rmax. destruct (Rle_dec (3 / 4) 1); [|lra]. destruct (Rle_dec (3 / 4) 0); lra.
Qed.
