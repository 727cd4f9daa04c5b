(** Facts about binary64 and the conversions used by the proofs. *)
From Verif Require Import Float64 Float32Facts.
From Flocq Require Import Core Relative.
From Coq Require Import Reals Lra.
Open Scope R_scope.

Notation fexp64 := (SpecFloat.fexp 53 1024).
Notation R64 := (@B2R 53 1024).

Lemma fmt64 m e : (Z.abs m <= 2 ^ 53)%Z -> (-1074 <= e)%Z -> generic_format radix2 fexp64 (IZR m * bpow radix2 e).
Proof.
  intros Hm He.
  assert (H : forall m e, (Z.abs m < 2 ^ 53)%Z -> (-1074 <= e)%Z -> generic_format radix2 fexp64 (IZR m * bpow radix2 e)).
  { intros m' e' H1 H2. apply (generic_format_FLT radix2 (-1074) 53). exists (Float radix2 m' e'); auto. }
  destruct (Z.eq_dec (Z.abs m) (2 ^ 53)) as [E|E]; [|apply H; lia].
  assert (D : m = (2 ^ 53)%Z \/ m = (- 2 ^ 53)%Z) by lia.
  replace (IZR m * bpow radix2 e)%R with (IZR (m / 2 ^ 53) * bpow radix2 (e + 53))%R.
  - apply H; [destruct D; subst; cbn; lia|lia].
  - rewrite bpow_plus. destruct D; subst; cbn; lra.
Qed.
Lemma fmt64_int z : (Z.abs z <= 2 ^ 53)%Z -> generic_format radix2 fexp64 (IZR z).
Proof. intros H. replace (IZR z) with (IZR z * bpow radix2 0) by (cbn; lra). apply fmt64; lia. Qed.

Lemma trunc_R64 x : Btrunc x = Ztrunc (R64 x).
Proof.
  apply eq_IZR. rewrite (Btrunc_correct 53 1024 _). unfold round, F2R, scaled_mantissa, cexp, FIX_exp. cbn.
  rewrite !Rmult_1_r. reflexivity.
Qed.

Lemma small64 m e : (Z.abs m <= 2 ^ 53)%Z -> (e <= 900)%Z -> Rabs (IZR m * bpow radix2 e) < bpow radix2 1024.
Proof.
  intros Hm He. rewrite Rabs_mult, (Rabs_pos_eq (bpow radix2 e)) by apply bpow_ge_0.
  rewrite <- abs_IZR. apply Rle_lt_trans with (bpow radix2 (53 + 900)).
  - rewrite bpow_plus. apply Rmult_le_compat.
    + apply IZR_le. lia. + apply bpow_ge_0.
    + replace (bpow radix2 53) with (IZR (2 ^ 53)) by reflexivity. apply IZR_le. lia.
    + apply bpow_le. lia.
  - apply bpow_lt. lia.
Qed.
Lemma d_of_int_exact z : (Z.abs z <= 2 ^ 53)%Z -> R64 (d_of_int z) = IZR z /\ is_finite (d_of_int z) = true.
Proof.
  intros H. unfold d_of_int. pose proof (binary_normalize_correct 53 1024 _ _ mode_NE z 0 false) as C. cbv zeta in C.
  replace (F2R {| Fnum := z; Fexp := 0 |}) with (IZR z * bpow radix2 0) in C by reflexivity.
  rewrite round_generic in C; [|apply valid_rnd_N|apply fmt64; lia].
  rewrite Rlt_bool_true in C; [|apply small64; lia]. destruct C as (A & B & _). split; [rewrite A; cbn; lra | exact B].
Qed.
(** Every float is a double. *)
Lemma widen_exact (x : f32) : is_finite x = true -> R64 (widen x) = R32 x /\ is_finite (widen x) = true.
Proof.
  destruct x as [s | s | | s m e Hb]; try discriminate; intros _; [split; reflexivity | ].
  unfold widen. pose proof (binary_normalize_correct 53 1024 _ _ mode_NE (cond_Zopp s (Zpos m)) e s) as C. cbv zeta in C.
  assert (Hm : (Z.abs (cond_Zopp s (Z.pos m)) <= 2 ^ 53)%Z /\ (-1074 <= e <= 900)%Z).
  { rewrite abs_cond_Zopp. cbn [Z.abs]. unfold SpecFloat.bounded in Hb. apply andb_true_iff in Hb as [H1 H2]. apply Zle_bool_imp_le in H2.
    unfold SpecFloat.canonical_mantissa in H1. apply Zeq_bool_eq in H1. unfold SpecFloat.fexp, SpecFloat.emin in H1.
    rewrite Digits.Zpos_digits2_pos in H1.
    assert (D : (Digits.Zdigits radix2 (Z.pos m) <= 24)%Z) by lia.
    pose proof (Digits.Zpower_gt_Zdigits radix2 24 (Z.pos m) D) as Q. cbn [radix_val radix2 Z.abs] in Q.
    split; [ | lia]. assert (2 ^ 24 <= 2 ^ 53)%Z by (apply Z.pow_le_mono_r; lia). lia. }
  destruct Hm as [Hm He].
  replace (F2R {| Fnum := cond_Zopp s (Z.pos m); Fexp := e |}) with (IZR (cond_Zopp s (Z.pos m)) * bpow radix2 e) in C by reflexivity.
  rewrite round_generic in C; [|apply valid_rnd_N|apply fmt64; lia].
  rewrite Rlt_bool_true in C; [|apply small64; lia]. destruct C as (A & B & _). split; [rewrite A; reflexivity | exact B].
Qed.

(** Rounding changes a number by a tiny fraction of it. *)
Definition near (k x y : R) : Prop := x * (1 - k) <= y <= x * (1 + k).
Lemma near_refl x k : 0 <= k -> 0 <= x -> near k x x.
Proof. intros. unfold near. nra. Qed.
Lemma near_trans k1 k2 x y z : 0 <= k1 -> 0 <= k2 <= 1 -> 0 <= x -> near k1 x y -> near k2 y z -> near (k1 + k2 + k1 * k2) x z.
Proof.
  intros H1 H2 Hx [A B] [C D]. unfold near. split.
  - apply Rle_trans with (y * (1 - k2)); [ | exact C]. apply Rle_trans with (x * (1 - k1) * (1 - k2)); [ | nra].
    assert (0 <= x * (k1 * k2)) by (apply Rmult_le_pos; [ | apply Rmult_le_pos]; lra). lra.
  - apply Rle_trans with (y * (1 + k2)); [exact D | ]. apply Rle_trans with (x * (1 + k1) * (1 + k2)); [ | lra].
    apply Rmult_le_compat_r; lra.
Qed.
Lemma near_weaken k k' x y : k <= k' -> 0 <= x -> near k x y -> near k' x y.
Proof. unfold near. intros. split; nra. Qed.
Lemma near_mult k x y c : 0 <= c -> near k x y -> near k (x * c) (y * c).
Proof. unfold near. intros. split; nra. Qed.
Lemma near_pos k x y : k <= 1/2 -> 0 < x -> near k x y -> x / 2 <= y.
Proof. unfold near. intros. nra. Qed.

Lemma round32_near x : bpow radix2 (-100) <= x -> near (bpow radix2 (-24)) x (round radix2 fexp32 (round_mode mode_NE) x).
Proof.
  intros Hx. assert (P : 0 < x) by (pose proof (bpow_gt_0 radix2 (-100)); lra).
  destruct (relative_error_N_FLT_ex radix2 (-149) 24 eq_refl (fun z => negb (Z.even z)) x) as (e & He & E).
  { rewrite Rabs_pos_eq by lra. eapply Rle_trans; [apply bpow_le | exact Hx]. lia. }
  change (round radix2 fexp32 (round_mode mode_NE) x) with (round radix2 (FLT_exp (-149) 24) (Znearest (fun z => negb (Z.even z))) x).
  rewrite E. assert (Q : / 2 * bpow radix2 (- (24) + 1) = bpow radix2 (-24)) by (change (- (24))%Z with (-24)%Z; rewrite (bpow_plus radix2 (-24) 1), bpow_1; change (IZR radix2) with 2; lra).
  rewrite Q in He. apply Rabs_le_inv in He. unfold near. split; apply Rmult_le_compat_l; lra.
Qed.
Lemma round64_near x : bpow radix2 (-100) <= x -> near (bpow radix2 (-53)) x (round radix2 fexp64 (round_mode mode_NE) x).
Proof.
  intros Hx. assert (P : 0 < x) by (pose proof (bpow_gt_0 radix2 (-100)); lra).
  destruct (relative_error_N_FLT_ex radix2 (-1074) 53 eq_refl (fun z => negb (Z.even z)) x) as (e & He & E).
  { rewrite Rabs_pos_eq by lra. eapply Rle_trans; [apply bpow_le | exact Hx]. lia. }
  change (round radix2 fexp64 (round_mode mode_NE) x) with (round radix2 (FLT_exp (-1074) 53) (Znearest (fun z => negb (Z.even z))) x).
  rewrite E. assert (Q : / 2 * bpow radix2 (- (53) + 1) = bpow radix2 (-53)) by (change (- (53))%Z with (-53)%Z; rewrite (bpow_plus radix2 (-53) 1), bpow_1; change (IZR radix2) with 2; lra).
  rewrite Q in He. apply Rabs_le_inv in He. unfold near. split; apply Rmult_le_compat_l; lra.
Qed.
Lemma round64_le x y : x <= y -> round radix2 fexp64 (round_mode mode_NE) x <= round radix2 fexp64 (round_mode mode_NE) y.
Proof. intros. apply round_le; [apply fexp_correct; reflexivity | apply valid_rnd_N | assumption]. Qed.
Lemma round64_id x : generic_format radix2 fexp64 x -> round radix2 fexp64 (round_mode mode_NE) x = x.
Proof. intros. apply round_generic; [apply valid_rnd_N | assumption]. Qed.
Lemma round64_0 : round radix2 fexp64 (round_mode mode_NE) 0 = 0.
Proof. apply round_0, valid_rnd_N. Qed.
Lemma round32_0 : round radix2 fexp32 (round_mode mode_NE) 0 = 0.
Proof. apply round_0, valid_rnd_N. Qed.
Lemma round32_le x y : x <= y -> round radix2 fexp32 (round_mode mode_NE) x <= round radix2 fexp32 (round_mode mode_NE) y.
Proof. intros. apply round_le; [apply fexp_correct; reflexivity | apply valid_rnd_N | assumption]. Qed.

Lemma round64_lt x k : 0 <= x <= bpow radix2 k -> (-1000 <= k <= 1000)%Z ->
  0 <= round radix2 fexp64 (round_mode mode_NE) x <= bpow radix2 k.
Proof.
  intros [H1 H2] Hk. split; [rewrite <- round64_0; now apply round64_le | ].
  rewrite <- (round64_id (bpow radix2 k)); [now apply round64_le | ].
  replace (bpow radix2 k) with (IZR 1 * bpow radix2 k) by lra. apply fmt64; lia.
Qed.
Lemma round32_lt x k : 0 <= x <= bpow radix2 k -> (-100 <= k <= 100)%Z ->
  0 <= round radix2 fexp32 (round_mode mode_NE) x <= bpow radix2 k.
Proof.
  intros [H1 H2] Hk. split; [rewrite <- round32_0; now apply round32_le | ].
  rewrite <- (round_generic radix2 fexp32 (round_mode mode_NE) (bpow radix2 k)); [now apply round32_le | ].
  replace (bpow radix2 k) with (IZR 1 * bpow radix2 k) by lra. apply fmt32; lia.
Qed.

(** The operations on nonnegative numbers that stay far below the overflow threshold. *)
Lemma dmul_R x y k : is_finite x = true -> is_finite y = true -> 0 <= R64 x * R64 y <= bpow radix2 k -> (-1000 <= k <= 1000)%Z ->
  R64 (dmul x y) = round radix2 fexp64 (round_mode mode_NE) (R64 x * R64 y) /\ is_finite (dmul x y) = true.
Proof.
  intros Fx Fy H Hk. unfold dmul. pose proof (Bmult_correct 53 1024 _ _ mode_NE x y) as C.
  destruct (round64_lt _ k H Hk) as [L U].
  rewrite Rlt_bool_true in C. { destruct C as (A & B & _). rewrite Fx, Fy in B. auto. }
  rewrite Rabs_pos_eq by exact L. eapply Rle_lt_trans; [exact U | ]. apply bpow_lt. lia.
Qed.
Lemma ddiv_R x y k : is_finite x = true -> R64 y <> 0 -> 0 <= R64 x / R64 y <= bpow radix2 k -> (-1000 <= k <= 1000)%Z ->
  R64 (ddiv x y) = round radix2 fexp64 (round_mode mode_NE) (R64 x / R64 y) /\ is_finite (ddiv x y) = true.
Proof.
  intros Fx Ny H Hk. unfold ddiv. pose proof (Bdiv_correct 53 1024 _ _ mode_NE x y Ny) as C.
  destruct (round64_lt _ k H Hk) as [L U].
  rewrite Rlt_bool_true in C. { destruct C as (A & B & _). rewrite Fx in B. auto. }
  rewrite Rabs_pos_eq by exact L. eapply Rle_lt_trans; [exact U | ]. apply bpow_lt. lia.
Qed.
Lemma fdiv_R x y k : is_finite x = true -> R32 y <> 0 -> 0 <= R32 x / R32 y <= bpow radix2 k -> (-100 <= k <= 100)%Z ->
  R32 (fdiv x y) = round radix2 fexp32 (round_mode mode_NE) (R32 x / R32 y) /\ is_finite (fdiv x y) = true.
Proof.
  intros Fx Ny H Hk. unfold fdiv. pose proof (Bdiv_correct 24 128 _ _ mode_NE x y Ny) as C.
  destruct (round32_lt _ k H Hk) as [L U].
  rewrite Rlt_bool_true in C. { destruct C as (A & B & _). rewrite Fx in B. auto. }
  rewrite Rabs_pos_eq by exact L. eapply Rle_lt_trans; [exact U | ]. apply bpow_lt. lia.
Qed.
Lemma narrow_R (x : f64) k : is_finite x = true -> 0 <= R64 x <= bpow radix2 k -> (-100 <= k <= 100)%Z ->
  R32 (narrow x) = round radix2 fexp32 (round_mode mode_NE) (R64 x) /\ is_finite (narrow x) = true.
Proof.
  destruct x as [s | s | | s m e Hb]; try discriminate; intros _ H Hk.
  - split; [ | reflexivity]. symmetry. apply round32_0.
  - unfold narrow. pose proof (binary_normalize_correct 24 128 _ _ mode_NE (cond_Zopp s (Zpos m)) e s) as C. cbv zeta in C.
    change (F2R {| Fnum := cond_Zopp s (Z.pos m); Fexp := e |}) with (R64 (B754_finite s m e Hb)) in C.
    destruct (round32_lt _ k H Hk) as [L U].
    rewrite Rlt_bool_true in C. { destruct C as (A & B & _). auto. }
    rewrite Rabs_pos_eq by exact L. eapply Rle_lt_trans; [exact U | ]. apply bpow_lt. lia.
Qed.
