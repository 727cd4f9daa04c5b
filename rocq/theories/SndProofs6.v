(** Rounding errors of sums and products of numbers of moderate size. *)
From Verif Require Import SndModel SndSpec SndProofs SndProofs2 SndProofs3 SndProofs4 SndProofs5 Float32Facts.
From Flocq Require Import Core.
From Coq Require Import Reals Lia Lra ZifyBool.
Local Open Scope R_scope.
Definition near (x : f32) (r d : R) : Prop := is_finite x = true /\ Rabs (R32 x - r) <= d.
Definition u := / 16777216.
Lemma tiny_le : bpow radix2 (-150) <= / 1000000000000.
Proof. apply Rle_trans with (bpow radix2 (-40)); [apply bpow_le; lia|]. replace (bpow radix2 (-40)) with (/ 1099511627776) by reflexivity. lra. Qed.
Lemma rnd_small r : Rabs r <= 10000 -> Rabs (rnd32 r - r) <= u * Rabs r + / 1000000000000 /\ Rabs (rnd32 r) < bpow radix2 128.
Proof.
  intro H. pose proof (rnd_rel r) as G. pose proof tiny_le as T. split; [unfold u; lra|].
  assert (Rabs (rnd32 r) <= 20000).
  { replace (rnd32 r) with ((rnd32 r - r) + r) by ring. apply Rle_trans with (1 := Rabs_triang _ _). lra. }
  apply Rle_lt_trans with (1 := H0). apply Rlt_le_trans with (bpow radix2 20); [replace (bpow radix2 20) with 1048576 by reflexivity; lra|apply bpow_le; lia].
Qed.
Lemma near_weaken x r d e : near x r d -> d <= e -> near x r e.
Proof. intros [A B] H. split; auto. lra. Qed.
Lemma near_mul x r d y s e A B D : near x r d -> near y s e -> Rabs r <= A -> Rabs s <= B ->
  (A + d) * (B + e) <= 10000 ->
  A * e + B * d + d * e + u * ((A + d) * (B + e)) + / 1000000000000 <= D -> near (fmul x y) (r * s) D.
Proof.
  intros [Fx Hx] [Fy Hy] HA HB L HD. pose proof (Bmult_correct 24 128 _ _ mode_NE x y) as C. change (round_mode mode_NE) with ZnearestE in C.
  set (a := R32 x) in *. set (b := R32 y) in *. pose proof (Rabs_pos (a - r)). pose proof (Rabs_pos (b - s)). pose proof (Rabs_pos r). pose proof (Rabs_pos s).
  assert (Ha : Rabs a <= A + d) by (replace a with ((a - r) + r) by ring; apply Rle_trans with (1 := Rabs_triang _ _); lra).
  assert (Hb : Rabs b <= B + e) by (replace b with ((b - s) + s) by ring; apply Rle_trans with (1 := Rabs_triang _ _); lra).
  assert (P : Rabs (a * b) <= (A + d) * (B + e)) by (rewrite Rabs_mult; apply Rmult_le_compat; auto; apply Rabs_pos).
  destruct (rnd_small (a * b) ltac:(lra)) as [E N]. rewrite Rlt_bool_true in C by exact N. destruct C as (C1 & C2 & _).
  split; [unfold fmul; rewrite C2, Fx, Fy; auto|]. unfold fmul. rewrite C1.
  replace (rnd32 (a * b) - r * s) with ((rnd32 (a * b) - a * b) + (r * (b - s) + s * (a - r) + (a - r) * (b - s))) by ring.
  apply Rle_trans with (1 := Rabs_triang _ _).
  assert (Q : Rabs (r * (b - s) + s * (a - r) + (a - r) * (b - s)) <= A * e + B * d + d * e).
  { apply Rle_trans with (1 := Rabs_triang _ _). apply Rplus_le_compat; [apply Rle_trans with (1 := Rabs_triang _ _); apply Rplus_le_compat|];
      rewrite Rabs_mult; apply Rmult_le_compat; auto. }
  assert (u * Rabs (a * b) <= u * ((A + d) * (B + e))) by (apply Rmult_le_compat_l; auto; unfold u; lra). lra.
Qed.
Lemma near_add x r d y s e A D : near x r d -> near y s e -> Rabs (r + s) <= A -> A + d + e <= 10000 ->
  d + e + u * (A + d + e) + / 1000000000000 <= D -> near (fadd x y) (r + s) D.
Proof.
  intros [Fx Hx] [Fy Hy] HA L HD. pose proof (Bplus_correct 24 128 _ _ mode_NE x y Fx Fy) as C. change (round_mode mode_NE) with ZnearestE in C.
  set (a := R32 x) in *. set (b := R32 y) in *.
  assert (Q : Rabs ((a - r) + (b - s)) <= d + e) by (apply Rle_trans with (1 := Rabs_triang _ _); lra).
  assert (P : Rabs (a + b) <= A + d + e). { replace (a + b) with ((r + s) + ((a - r) + (b - s))) by ring. apply Rle_trans with (1 := Rabs_triang _ _). lra. }
  destruct (rnd_small (a + b) ltac:(lra)) as [E N]. rewrite Rlt_bool_true in C by exact N. destruct C as (C1 & C2 & _).
  split; [exact C2|]. unfold fadd. rewrite C1.
  replace (rnd32 (a + b) - (r + s)) with ((rnd32 (a + b) - (a + b)) + ((a - r) + (b - s))) by ring.
  apply Rle_trans with (1 := Rabs_triang _ _).
  assert (u * Rabs (a + b) <= u * (A + d + e)) by (apply Rmult_le_compat_l; auto; unfold u; lra). lra.
Qed.
Lemma near_sub x r d y s e A D : near x r d -> near y s e -> Rabs (r - s) <= A -> A + d + e <= 10000 ->
  d + e + u * (A + d + e) + / 1000000000000 <= D -> near (fsub x y) (r - s) D.
Proof.
  intros [Fx Hx] [Fy Hy] HA L HD. pose proof (Bminus_correct 24 128 _ _ mode_NE x y Fx Fy) as C. change (round_mode mode_NE) with ZnearestE in C.
  set (a := R32 x) in *. set (b := R32 y) in *.
  assert (Q : Rabs ((a - r) - (b - s)) <= d + e). { unfold Rminus at 1. apply Rle_trans with (1 := Rabs_triang _ _). rewrite Rabs_Ropp. lra. }
  assert (P : Rabs (a - b) <= A + d + e). { replace (a - b) with ((r - s) + ((a - r) - (b - s))) by ring. apply Rle_trans with (1 := Rabs_triang _ _). lra. }
  destruct (rnd_small (a - b) ltac:(lra)) as [E N]. rewrite Rlt_bool_true in C by exact N. destruct C as (C1 & C2 & _).
  split; [exact C2|]. unfold fsub. rewrite C1.
  replace (rnd32 (a - b) - (r - s)) with ((rnd32 (a - b) - (a - b)) + ((a - r) - (b - s))) by ring.
  apply Rle_trans with (1 := Rabs_triang _ _).
  assert (u * Rabs (a - b) <= u * (A + d + e)) by (apply Rmult_le_compat_l; auto; unfold u; lra). lra.
Qed.
Lemma near_fma32 x r d y s e z t f A B K D : near x r d -> near y s e -> near z t f -> Rabs r <= A -> Rabs s <= B -> Rabs (r * s + t) <= K ->
  K + (A * e + B * d + d * e) + f <= 10000 ->
  (A * e + B * d + d * e) + f + u * (K + (A * e + B * d + d * e) + f) + / 1000000000000 <= D -> near (fma32 x y z) (r * s + t) D.
Proof.
  intros [Fx Hx] [Fy Hy] [Fz Hz] HA HB HK L HD. pose proof (Bfma_correct 24 128 _ _ mode_NE x y z Fx Fy Fz) as C. cbv zeta in C. change (round_mode mode_NE) with ZnearestE in C.
  set (a := R32 x) in *. set (b := R32 y) in *. set (c := R32 z) in *.
  pose proof (Rabs_pos (a - r)). pose proof (Rabs_pos (b - s)). pose proof (Rabs_pos r). pose proof (Rabs_pos s).
  set (q := A * e + B * d + d * e) in *.
  assert (Q : Rabs (r * (b - s) + s * (a - r) + (a - r) * (b - s)) <= q).
  { unfold q. apply Rle_trans with (1 := Rabs_triang _ _). apply Rplus_le_compat; [apply Rle_trans with (1 := Rabs_triang _ _); apply Rplus_le_compat|];
      rewrite Rabs_mult; apply Rmult_le_compat; auto. }
  assert (Q2 : Rabs ((a * b + c) - (r * s + t)) <= q + f).
  { replace ((a * b + c) - (r * s + t)) with ((r * (b - s) + s * (a - r) + (a - r) * (b - s)) + (c - t)) by ring. apply Rle_trans with (1 := Rabs_triang _ _). lra. }
  assert (P : Rabs (a * b + c) <= K + q + f). { replace (a * b + c) with ((r * s + t) + ((a * b + c) - (r * s + t))) by ring. apply Rle_trans with (1 := Rabs_triang _ _). lra. }
  destruct (rnd_small (a * b + c) ltac:(lra)) as [E N]. rewrite Rlt_bool_true in C by exact N. destruct C as (C1 & C2 & _).
  split; [exact C2|]. unfold fma32. rewrite C1.
  replace (rnd32 (a * b + c) - (r * s + t)) with ((rnd32 (a * b + c) - (a * b + c)) + ((a * b + c) - (r * s + t))) by ring.
  apply Rle_trans with (1 := Rabs_triang _ _).
  assert (u * Rabs (a * b + c) <= u * (K + q + f)) by (apply Rmult_le_compat_l; auto; unfold u; lra). lra.
Qed.
Lemma near_abs x r d : near x r d -> near (fabs x) (Rabs r) d.
Proof.
  intros [A B]. split; [unfold fabs; rewrite is_finite_Babs; auto|]. unfold fabs. rewrite B2R_Babs.
  apply Rle_trans with (2 := B). apply Rabs_triang_inv2.
Qed.
Section Machine.
Variable M : machine.
Hypothesis OK : machine_ok M.
Notation F := (enc (t_nan M)).
Definition fused : bool := match t_arch M with Neon7 => false | Neon8 => true | _ => t_fma M end.
Definition fma_x (x y z : f32) : f32 := if fused then fma32 x y z else fadd (fmul x y) z.
Lemma fma_eval x y z : hv_fma M (F x) (F y) (F z) = F (fma_x x y z).
Proof. unfold hv_fma. rewrite !vf by auto. reflexivity. Qed.
(** Whether or not the product is rounded. *)
Lemma near_fma x r d y s e z t f A B K P D : near x r d -> near y s e -> near z t f -> Rabs r <= A -> Rabs s <= B -> Rabs (r * s + t) <= K ->
  0 <= d -> 0 <= e -> (A + d) * (B + e) <= 10000 ->
  A * e + B * d + d * e + u * ((A + d) * (B + e)) + / 1000000000000 <= P -> K + P + f <= 10000 ->
  P + f + u * (K + P + f) + / 1000000000000 <= D -> near (fma_x x y z) (r * s + t) D.
Proof.
  intros Hx Hy Hz HA HB HK d0 e0 L HP LK HD. unfold fma_x. destruct fused.
  - eapply near_fma32; eauto.
    + assert (0 <= u * ((A + d) * (B + e))) by (pose proof (Rabs_pos r); pose proof (Rabs_pos s); apply Rmult_le_pos; [unfold u; lra|apply Rmult_le_pos; lra]). lra.
    + assert (0 <= u * ((A + d) * (B + e))) by (pose proof (Rabs_pos r); pose proof (Rabs_pos s); apply Rmult_le_pos; [unfold u; lra|apply Rmult_le_pos; lra]).
      assert (u * (K + (A * e + B * d + d * e) + f) <= u * (K + P + f)) by (apply Rmult_le_compat_l; unfold u in *; lra). lra.
  - eapply near_add with (A := K); eauto. eapply near_mul; eauto.
Qed.
End Machine.
(** Float constants. *)
Lemma const_near x n e r d : B2SF x = SpecFloat.S754_finite false n e -> Rabs (IZR (Zpos n) * bpow radix2 e - r) <= d -> near x r d.
Proof.
  intros A B. split; [rewrite <- is_finite_SF_B2SF, A; reflexivity|]. rewrite <- SF2R_B2SF, A. exact B.
Qed.
Lemma const_near' x n e r d : B2SF x = SpecFloat.S754_finite true n e -> Rabs (IZR (Zneg n) * bpow radix2 e - r) <= d -> near x r d.
Proof.
  intros A B. split; [rewrite <- is_finite_SF_B2SF, A; reflexivity|]. rewrite <- SF2R_B2SF, A. exact B.
Qed.
Ltac constant := first [eapply const_near; [vm_compute; reflexivity|] | eapply const_near'; [vm_compute; reflexivity|]];
  unfold bpow; change (radix_val radix2) with 2%Z;
  repeat match goal with |- context [Z.pow_pos ?a ?b] => let z := eval vm_compute in (Z.pow_pos a b) in change (Z.pow_pos a b) with z end;
  apply Rabs_le; lra.
Lemma c_2pi : near (decimal 628319 5) 6.28319 (/ 4000000). Proof. constant. Qed.
Lemma c_quarter : near (decimal 25 2) (/ 4) 0. Proof. constant. Qed.
Lemma c_half : near (decimal 5 1) (/ 2) 0. Proof. constant. Qed.
Lemma c_3 : near (decimal 166667 6) 0.166667 (/ 100000000). Proof. constant. Qed.
Lemma c_5 : near (decimal 833333 8) 0.00833333 (/ 2000000000). Proof. constant. Qed.
Lemma c_7 : near (decimal 198413 9) 0.000198413 (/ 100000000000). Proof. constant. Qed.
Lemma c_9 : near (decimal 275573 11) 0.00000275573 (/ 1000000000000). Proof. constant. Qed.
Lemma o_2pi : near (decimal 6283185307179586 15) 6.283185307179586 (/ 4000000). Proof. constant. Qed.
Lemma o_3 : near (decimal (-166666666666667) 15) (-0.166666666666667) (/ 100000000). Proof. constant. Qed.
Lemma o_5 : near (decimal 7833333333333 15) 0.007833333333333 (/ 2000000000). Proof. constant. Qed.
