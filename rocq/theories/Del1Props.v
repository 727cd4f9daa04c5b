(** C25, C26. *)
From Verif Require Import Del1Model Del1Spec.

Lemma del1_sse_gen A (zero : A) ops : forall x, 
  concat (map list4 (del1_run del1_sse (set1 zero) x ops)) = delayed zero (lane x 3) (samples list4 ops).
Proof.
  induction ops as [|[b|] ops IH]; intro x; [reflexivity| |].
  - destruct b, x. cbn. rewrite IH. reflexivity.
  - cbn. apply IH.
Qed.
Lemma del1_neon_gen A (zero : A) ops : forall x, 
  concat (map list4 (del1_run del1_neon (set1 zero) x ops)) = delayed zero (lane x 3) (samples list4 ops).
Proof.
  induction ops as [|[b|] ops IH]; intro x; [reflexivity| |].
  - destruct b, x. cbn. rewrite IH. reflexivity.
  - cbn. apply IH.
Qed.
(** C25 for SSE, NEON and the scalar build. *)
Theorem del1_sse_correct : forall (A : Type) (zero : A) ops,
  concat (map list4 (del1_run del1_sse (set1 zero) (set1 zero) ops)) = delayed zero zero (samples list4 ops).
Proof. intros. apply del1_sse_gen. Qed.
Theorem del1_neon_correct : forall (A : Type) (zero : A) ops,
  concat (map list4 (del1_run del1_neon (set1 zero) (set1 zero) ops)) = delayed zero zero (samples list4 ops).
Proof. intros. apply del1_neon_gen. Qed.
Theorem del1_scalar_correct : forall (A : Type) (zero : A) ops,
  concat (map (fun a => [a]) (del1_run del1_scalar zero zero ops)) = delayed zero zero (samples (fun a => [a]) ops).
Proof.
  intros A zero ops. assert (G : forall x, concat (map (fun a => [a]) (del1_run del1_scalar zero x ops)) =
     delayed zero x (samples (fun a => [a]) ops)); [|apply G].
  induction ops as [|[b|] ops IH]; intro x; [reflexivity| |]; cbn; rewrite ?IH; reflexivity.
Qed.
Example del1_example : concat (map list4 (del1_run del1_sse (set1 0) (set1 0) [Block (V4 1 2 3 4); Block (V4 5 6 7 8); ClearMsg; Block (V4 9 10 11 12)]))
  = [0;1;2;3; 4;5;6;7; 0;9;10;11].
Proof. reflexivity. Qed.

(** AVX: false.  Lane 4 of every block is lane 3 of the block before. *)
Theorem del1_avx_refuted :
  concat (map list8 (del1_run del1_avx (set1_8 0) (set1_8 0) [Block (V8 (V4 1 2 3 4) (V4 5 6 7 8))])) = [0;1;2;3;0;5;6;7] /\
  delayed 0 0 (samples list8 [Block (V8 (V4 1 2 3 4) (V4 5 6 7 8))]) = [0;1;2;3;4;5;6;7].
Proof. split; reflexivity. Qed.
(** ... and every other lane is right, in every history. *)
Fixpoint blot (i : nat) {A} (l : list A) : list (option A) :=   (* hide every 8th sample, from lane 4 on *)
  match l with [] => [] | x :: l' => (if Nat.eqb (i mod 8) 4 then None else Some x) :: blot (S i) l' end.
Theorem del1_avx_other_lanes_partial : forall (A : Type) (zero : A) ops,
  blot 0 (concat (map list8 (del1_run del1_avx (set1_8 zero) (set1_8 zero) ops))) =
  blot 0 (delayed zero zero (samples list8 ops)).
Proof.
  intros A zero ops.
  assert (G : forall x n, blot (8 * n) (concat (map list8 (del1_run del1_avx (set1_8 zero) x ops))) =
     blot (8 * n) (delayed zero (match x with V8 _ h => lane h 0 end) (samples list8 ops))).
  2:{ apply (G (set1_8 zero) 0%nat). }
  induction ops as [|[b|] ops IH]; intros x n; [reflexivity| |].
  - destruct b as [[a0 a1 a2 a3] [a4 a5 a6 a7]], x as [[b0 b1 b2 b3] [b4 b5 b6 b7]].
    specialize (IH (V8 (V4 a3 a0 a1 a2) (V4 a7 a4 a5 a6)) (S n)).
    assert (M : forall k, (k < 8)%nat -> Nat.modulo (k + 8 * n) 8 = k).
    { intros k Hk. rewrite (Nat.mul_comm 8 n), Nat.mod_add by lia. apply Nat.mod_small. auto. }
    replace (8 * S n)%nat with (8 + 8 * n)%nat in IH by lia.
    generalize dependent (8 * n)%nat. intros m IH M.
    pose proof (M 0%nat ltac:(lia)) as M0. pose proof (M 1%nat ltac:(lia)) as M1.
    pose proof (M 2%nat ltac:(lia)) as M2. pose proof (M 3%nat ltac:(lia)) as M3.
    pose proof (M 4%nat ltac:(lia)) as M4. pose proof (M 5%nat ltac:(lia)) as M5.
    pose proof (M 6%nat ltac:(lia)) as M6. pose proof (M 7%nat ltac:(lia)) as M7.
    cbn -[Nat.modulo] in *. rewrite M0, M1, M2, M3, M4, M5, M6, M7. cbn -[Nat.modulo].
    do 8 f_equal. exact IH.
  - cbn [del1_run samples flat_map app delayed]. apply IH.
Qed.

Lemma sh_sse_gen A ops : forall s : A,
  concat (map list4 (sh_run samphold_sse set1 (set1 s) ops)) = held s (sh_samples list4 list4 ops).
Proof.
  induction ops as [|[i t|a] ops IH]; intro s; [reflexivity| |].
  - destruct i as [i0 i1 i2 i3], t as [[] [] [] []]; cbn; unfold set1, shuffle in *; cbn [lane]; rewrite ?IH; reflexivity.
  - cbn. apply IH.
Qed.
(** C26 for SSE: every pattern of triggers, every history. *)
Theorem samphold_sse_correct : forall (A : Type) (zero : A) ops,
  concat (map list4 (sh_run samphold_sse set1 (set1 zero) ops)) = held zero (sh_samples list4 list4 ops).
Proof. intros. apply sh_sse_gen. Qed.
Theorem samphold_scalar_correct : forall (A : Type) (zero : A) ops,
  concat (map (fun a => [a]) (sh_run samphold_scalar (fun a => a) zero ops)) =
  held zero (sh_samples (fun a => [a]) (fun t => [t]) ops).
Proof.
  intros A zero ops. revert zero. induction ops as [|[i t|a] ops IH]; intro s; [reflexivity| |]; cbn; rewrite ?IH; reflexivity.
Qed.
Example samphold_example : concat (map list4 (sh_run samphold_sse set1 (set1 0)
   [ShBlock (V4 1 2 3 4) (V4 false true false false); ShBlock (V4 5 6 7 8) (V4 false true true false); ShSet 9; ShBlock (V4 1 1 1 1) (V4 false false false true)]))
  = [0;2;2;2; 2;6;7;7; 9;9;9;1].
Proof. reflexivity. Qed.

(** NEON: missing breaks.  Two triggers in lanes 1 and 2 hold lane 3's value; five of the sixteen
    patterns (0, 2 / 1, 2 / 0, 3 / 1, 3 / 0, 2, 3) are wrong. *)
Theorem samphold_neon_refuted :
  concat (map list4 (sh_run samphold_neon set1 (set1 0) [ShBlock (V4 1 2 3 4) (V4 true false true false); ShBlock (V4 0 0 0 0) (V4 false false false false)])) = [1;2;3;3; 3;3;3;3] /\
  held 0 (sh_samples list4 list4 [ShBlock (V4 1 2 3 4) (V4 true false true false); ShBlock (V4 0 0 0 0) (V4 false false false false)]) = [1;1;3;3; 3;3;3;3] /\
  concat (map list4 (sh_run samphold_neon set1 (set1 0) [ShBlock (V4 1 2 3 4) (V4 false true true false)])) = [1;2;3;3] /\
  held 0 (sh_samples list4 list4 [ShBlock (V4 1 2 3 4) (V4 false true true false)]) = [0;2;3;3].
Proof. repeat split; reflexivity. Qed.
(** The eleven other patterns are right, in every history made of them. *)
Definition neon_pattern_ok (t : vec4 bool) : bool :=
  match movemask t with 5 | 6 | 9 | 10 | 13 => false | _ => true end%nat.
Theorem samphold_neon_partial : forall (A : Type) (zero : A) ops,
  (forall i t, In (ShBlock i t) ops -> neon_pattern_ok t = true) ->
  concat (map list4 (sh_run samphold_neon set1 (set1 zero) ops)) = held zero (sh_samples list4 list4 ops).
Proof.
  intros A zero ops. revert zero. induction ops as [|[i t|a] ops IH]; intros s H; [reflexivity| |].
  - pose proof (H i t (or_introl eq_refl)) as P.
    assert (H' : forall i0 t0, In (ShBlock i0 t0) ops -> neon_pattern_ok t0 = true) by (intros i0 t0 I0; eapply H; right; exact I0).
    destruct i as [i0 i1 i2 i3], t as [[] [] [] []]; try discriminate P; cbn; unfold set1, shuffle in *; cbn [lane]; rewrite ?IH by exact H'; reflexivity.
  - cbn. apply IH. intros i t I0. eapply H. right. exact I0.
Qed.
(** AVX: not implemented, the assertion trips on the first block. *)
Theorem samphold_avx_refuted : forall (A : Type) (s i : vec8 A) t, samphold_avx s i t = AssertFail.
Proof. reflexivity. Qed.

Print Assumptions del1_sse_correct.
Print Assumptions del1_neon_correct.
Print Assumptions del1_scalar_correct.
Print Assumptions del1_avx_refuted.
Print Assumptions del1_avx_other_lanes_partial.
Print Assumptions samphold_sse_correct.
Print Assumptions samphold_scalar_correct.
Print Assumptions samphold_neon_refuted.
Print Assumptions samphold_neon_partial.
Print Assumptions samphold_avx_refuted.
