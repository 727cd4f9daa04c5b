(** cos~ and osc~. *)
From Verif Require Import SndModel SndSpec SndProofs SndProofs2 SndProofs3 SndProofs4 SndProofs5 SndProofs6 SndProofs7 Float32Facts.
From Flocq Require Import Core.
From Coq Require Import Reals Lia Lra.
Local Open Scope R_scope.
Section Machine.
Variable M : machine.
Hypothesis OK : machine_ok M.
Notation F := (enc (t_nan M)).
(** The folded phase, in radians, of a phase [w] between 0 and 1. *)
Definition folded (c : f32) (w : f32) : f32 := fmul (fsub (fabs (fsub w (decimal 5 1))) (decimal 25 2)) c.
Definition poly9 (y : f32) : f32 :=
  let y2 := fmul y y in let y3 := fmul y y2 in let y5 := fmul y3 y2 in let y7 := fmul y5 y2 in let y9 := fmul y7 y2 in
  fma_x M y9 (decimal 275573 11)
    (fsub (fma_x M y5 (decimal 833333 8) (fsub y (fmul y3 (decimal 166667 6)))) (fmul y7 (decimal 198413 9))).
Definition poly5 (y : f32) : f32 :=
  let y2 := fmul y y in let y3 := fmul y y2 in let y5 := fmul y3 y2 in
  fma_x M y5 (decimal 7833333333333 15) (fma_x M y3 (decimal (-166666666666667) 15) y).
Lemma cos_eval x : snd_out M cos_sig [F x] 0 = Ok (F (poly9 (folded (decimal 628319 5) (fsub x (Bnearbyint mode_DN x))))).
Proof.
  etransitivity; [run_patch; reflexivity|]. unfold poly9, folded. cbv zeta.
  repeat (rewrite ?(vf M OK); rewrite ?(v_abs M OK) by (apply fw; auto)). rewrite !fma_eval by auto. rewrite !(vf M OK). reflexivity.
Qed.
Lemma osc_eval x : snd_out M osc_sig [F x] 0 = Ok (F (poly5 (folded (decimal 6283185307179586 15) x))).
Proof.
  etransitivity; [run_patch; reflexivity|]. unfold poly5, folded. cbv zeta.
  repeat (rewrite ?(vf M OK); rewrite ?(v_abs M OK) by (apply fw; auto)). rewrite !fma_eval by auto. reflexivity.
Qed.
Ltac step := first [lra | unfold u; lra | auto].
(** [w]: a phase near [f]. *)
Lemma folded_near w f c r : near w f (/ 33000000) -> 0 <= f <= 1 -> near c r (/ 4000000) -> 6.2831 <= r <= 6.2832 ->
  near (folded c w) ((Rabs (f - / 2) - / 4) * r) (/ 1200000).
Proof.
  intros Hw Hf Hc Hr. unfold folded.
  assert (T : 0 <= Rabs (f - / 2) <= / 2) by (split; [apply Rabs_pos|apply Rabs_le; lra]).
  assert (N1 : near (fsub w (decimal 5 1)) (f - / 2) (/ 16000000)) by (eapply near_sub with (A := / 2); [exact Hw|exact c_half|apply Rabs_le| |]; step).
  apply near_abs in N1.
  assert (N2 : near (fsub (fabs (fsub w (decimal 5 1))) (decimal 25 2)) (Rabs (f - / 2) - / 4) (/ 12000000)).
  { eapply near_sub with (A := / 4); [exact N1|exact c_quarter|apply Rabs_le| |]; step. }
  eapply near_mul with (A := / 4) (B := 6.2832); [exact N2|exact Hc|apply Rabs_le|apply Rabs_le| |]; step.
Qed.
Lemma pow_bound Y b n : Rabs Y <= b -> Rabs (Y ^ n) <= b ^ n.
Proof. intro H. rewrite <- RPow_abs. apply pow_incr. split; [apply Rabs_pos|auto]. Qed.
Lemma near_self y : is_finite y = true -> near y (R32 y) 0.
Proof. intro H. split; auto. rewrite Rminus_diag_eq, Rabs_R0 by auto. lra. Qed.
Section Powers.
Variable y : f32.
Hypothesis Fy : is_finite y = true.
Let Y := R32 y.
Hypothesis HY : Rabs Y <= 1.572.
Lemma b2 : Rabs (Y ^ 2) <= 2.4712. Proof. apply Rle_trans with (1 := pow_bound Y _ 2 HY). simpl. lra. Qed.
Lemma b3 : Rabs (Y ^ 3) <= 3.8848. Proof. apply Rle_trans with (1 := pow_bound Y _ 3 HY). simpl. lra. Qed.
Lemma b5 : Rabs (Y ^ 5) <= 9.6001. Proof. apply Rle_trans with (1 := pow_bound Y _ 5 HY). simpl. lra. Qed.
Lemma b7 : Rabs (Y ^ 7) <= 23.7239. Proof. apply Rle_trans with (1 := pow_bound Y _ 7 HY). simpl. lra. Qed.
Lemma b9 : Rabs (Y ^ 9) <= 58.6266. Proof. apply Rle_trans with (1 := pow_bound Y _ 9 HY). simpl. lra. Qed.
Lemma n2 : near (fmul y y) (Y ^ 2) (/ 6000000).
Proof. replace (Y ^ 2) with (Y * Y) by ring. eapply near_mul with (A := 1.572) (B := 1.572); [apply near_self|apply near_self| | | |]; step. Qed.
Lemma n3 : near (fmul y (fmul y y)) (Y ^ 3) (/ 2000000).
Proof. replace (Y ^ 3) with (Y * Y ^ 2) by ring. eapply near_mul with (A := 1.572) (B := 2.4712); [apply near_self; auto|apply n2| |apply b2| |]; step. Qed.
Lemma n5 : near (fmul (fmul y (fmul y y)) (fmul y y)) (Y ^ 5) (/ 400000).
Proof. replace (Y ^ 5) with (Y ^ 3 * Y ^ 2) by ring. eapply near_mul with (A := 3.8848) (B := 2.4712); [apply n3|apply n2|apply b3|apply b2| |]; step. Qed.
Lemma n7 : near (fmul (fmul (fmul y (fmul y y)) (fmul y y)) (fmul y y)) (Y ^ 7) (/ 100000).
Proof. replace (Y ^ 7) with (Y ^ 5 * Y ^ 2) by ring. eapply near_mul with (A := 9.6001) (B := 2.4712); [apply n5|apply n2|apply b5|apply b2| |]; step. Qed.
Lemma n9 : near (fmul (fmul (fmul (fmul y (fmul y y)) (fmul y y)) (fmul y y)) (fmul y y)) (Y ^ 9) (/ 20000).
Proof. replace (Y ^ 9) with (Y ^ 7 * Y ^ 2) by ring. eapply near_mul with (A := 23.7239) (B := 2.4712); [apply n7|apply n2|apply b7|apply b2| |]; step. Qed.
Definition p9 (Y : R) := Y ^ 9 * 0.00000275573 + (Y ^ 5 * 0.00833333 + (Y - Y ^ 3 * 0.166667) - Y ^ 7 * 0.000198413).
Ltac abses := repeat match goal with H : Rabs _ <= _ |- _ => apply Rabs_le_inv in H end; try (apply Rabs_le); lra.
Lemma poly9_near : near (poly9 y) (p9 Y) (/ 1200000).
Proof.
  pose proof b3 as B3. pose proof b5 as B5. pose proof b7 as B7. pose proof b9 as B9. pose proof HY as B1.
  unfold poly9, p9. cbv zeta.
  assert (A15 : near (fmul (fmul y (fmul y y)) (decimal 166667 6)) (Y ^ 3 * 0.166667) (/ 5000000)).
  { eapply near_mul with (A := 3.8848) (B := 0.1667); [apply n3|apply c_3|auto|apply Rabs_le| |]; step. }
  assert (A14 : near (fsub y (fmul (fmul y (fmul y y)) (decimal 166667 6))) (Y - Y ^ 3 * 0.166667) (/ 2900000)).
  { eapply near_sub with (A := 2.22); [apply near_self; auto|apply A15|abses| |]; step. }
  assert (A13 : near (fma_x M (fmul (fmul y (fmul y y)) (fmul y y)) (decimal 833333 8) (fsub y (fmul (fmul y (fmul y y)) (decimal 166667 6)))) (Y ^ 5 * 0.00833333 + (Y - Y ^ 3 * 0.166667)) (/ 1900000)).
  { eapply near_fma with (A := 9.6001) (B := 0.0084) (K := 2.31) (P := / 28000000); [apply n5|apply c_5|apply A14|auto|apply Rabs_le|abses| | | | | |]; step. }
  assert (A18 : near (fmul (fmul (fmul (fmul y (fmul y y)) (fmul y y)) (fmul y y)) (decimal 198413 9)) (Y ^ 7 * 0.000198413) (/ 300000000)).
  { eapply near_mul with (A := 23.7239) (B := 0.0002); [apply n7|apply c_7|auto|apply Rabs_le| |]; step. }
  assert (A19 : near (fsub (fma_x M (fmul (fmul y (fmul y y)) (fmul y y)) (decimal 833333 8) (fsub y (fmul (fmul y (fmul y y)) (decimal 166667 6))))
     (fmul (fmul (fmul (fmul y (fmul y y)) (fmul y y)) (fmul y y)) (decimal 198413 9))) (Y ^ 5 * 0.00833333 + (Y - Y ^ 3 * 0.166667) - Y ^ 7 * 0.000198413) (/ 1480000)).
  { eapply near_sub with (A := 2.32); [apply A13|apply A18|abses| |]; step. }
  eapply near_fma with (A := 58.6266) (B := 0.000003) (K := 2.33) (P := / 1000000000); [apply n9|apply c_9|apply A19|auto|apply Rabs_le|abses| | | | | |]; step.
Qed.
Definition p5 (Y : R) := Y ^ 5 * 0.007833333333333 + (Y ^ 3 * -0.166666666666667 + Y).
Lemma poly5_near : near (poly5 y) (p5 Y) (/ 1200000).
Proof.
  pose proof b3 as B3. pose proof b5 as B5. pose proof HY as B1.
  unfold poly5, p5. cbv zeta.
  assert (A22 : near (fma_x M (fmul y (fmul y y)) (decimal (-166666666666667) 15) y) (Y ^ 3 * -0.166666666666667 + Y) (/ 2900000)).
  { eapply near_fma with (A := 3.8848) (B := 0.1667) (K := 2.22) (P := / 5000000); [apply n3|apply o_3|apply near_self; auto|auto|apply Rabs_le|abses| | | | | |]; step. }
  eapply near_fma with (A := 9.6001) (B := 0.0084) (K := 2.31) (P := / 28000000); [apply n5|apply o_5|apply A22|auto|apply Rabs_le|abses| | | | | |]; step.
Qed.
Lemma p9_sin : Rabs (p9 Y - sin Y) <= / 190000.
Proof.
  pose proof (sin_near Y HY) as S. pose proof b3 as B3. pose proof b5 as B5. pose proof b7 as B7. pose proof b9 as B9. unfold t9, p9 in *. 
  repeat match goal with H : Rabs _ <= _ |- _ => apply Rabs_le_inv in H end. apply Rabs_le.
  unfold Rdiv in *. lra.
Qed.
End Powers.
End Machine.
