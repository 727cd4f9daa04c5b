(** Histories of noise~. *)
From Verif Require Import NoiseSpec NoiseProofs NoiseProofs2 Float32Facts.
From Coq Require Import Lia Znumtheory Reals Lra.
From Flocq Require Import Core.
Open Scope Z_scope.

Lemma all_ok_map {A B} (f : A -> outcome B) (g : A -> B) l : (forall x, In x l -> f x = Ok (g x)) -> all_ok (map f l) = Ok (map g l).
Proof.
  induction l as [| x l IH]; intros H; [reflexivity |]. cbn [map all_ok]. rewrite (H x (or_introl eq_refl)). cbn [obind].
  rewrite IH by (intros y Hy; apply H; right; exact Hy). reflexivity.
Qed.
Lemma simd_lanes a : simd a -> (4 <= lane_count a <= 8)%nat.
Proof. intros H. unfold simd in H. destruct a; cbn; try lia. congruence. Qed.
Lemma to_int_ok f : is_finite f = true -> -2147483648 <= Btrunc f <= 2147483640 -> to_int f = Ok (Btrunc f).
Proof.
  intros F H. unfold to_int. rewrite F. unfold fits_int, int_min, int_max. cbv zeta.
  rewrite (proj2 (Z.leb_le _ _)), (proj2 (Z.leb_le _ _)) by lia. reflexivity.
Qed.
Lemma c_int_ok z : -2147483648 <= z <= 2147483647 -> c_int z = Ok z.
Proof. intros H. unfold c_int. rewrite (proj2 (Z.leb_le _ _)), (proj2 (Z.leb_le _ _)) by lia. reflexivity. Qed.
Lemma one_int : to_int (of_int 1) = Ok 1.
Proof. reflexivity. Qed.

(** The lanes after a number. *)
Definition lanes (a : arch) (k : Z) : list Z := map (fun i => k + Z.of_nat i) (seq 0 (lane_count a)).
Lemma seeded a v f : simd a -> seed_ok f -> sVari_onMessage a v [f; of_int 1] = Ok (lanes a (Btrunc f)).
Proof.
  intros Ha [F H]. pose proof (simd_lanes a Ha) as L. unfold sVari_onMessage. rewrite (to_int_ok f F H). cbn [obind]. rewrite one_int. cbn [obind].
  transitivity (let! l := all_ok (map (fun i => let! s := c_int (Z.of_nat i * 1) in c_int (Btrunc f + s)) (seq 0 (lane_count a))) in Ok l).
  { destruct a; try reflexivity. contradiction Ha. reflexivity. }
  rewrite (all_ok_map _ (fun i => Btrunc f + Z.of_nat i)); [reflexivity |].
  intros i Hi. apply in_seq in Hi. rewrite c_int_ok by lia. cbn [obind]. rewrite c_int_ok by lia. f_equal. lia.
Qed.
Lemma one_block a v : simd a -> noise_block a v = Ok (map (fun x => wrap32 (x * 16807)) v, map (fun x => out (wrap32 (x * 16807))) v).
Proof.
  intros Ha. unfold noise_block. rewrite (all_ok_map _ (fun x => wrap32 (x * 16807))).
  - cbn [obind]. rewrite map_map. reflexivity.
  - intros x _. destruct a; try reflexivity. contradiction Ha. reflexivity.
Qed.
(** The states on the way. *)
Fixpoint states (a : arch) (v : list Z) (l : list noise_event) : list Z :=
  match l with
  | [] => v
  | NSeed f :: l' => states a (lanes a (Btrunc f)) l'
  | NBlock :: l' => states a (map (fun x => wrap32 (x * 16807)) v) l'
  end.
Fixpoint outs (a : arch) (v : list Z) (l : list noise_event) : list (list f32) :=
  match l with
  | [] => []
  | NSeed f :: l' => outs a (lanes a (Btrunc f)) l'
  | NBlock :: l' => map (fun x => out (wrap32 (x * 16807))) v :: outs a (map (fun x => wrap32 (x * 16807)) v) l'
  end.
Lemma runs a l : simd a -> seeds_ok l -> forall v, noise_run a v l = Ok (outs a v l).
Proof.
  intros Ha. induction l as [| [f |] l IH]; intros Hl v; [reflexivity | |]; cbn [noise_run outs].
  - rewrite (seeded a v f Ha (Hl f (or_introl eq_refl))). cbn [obind]. apply IH. intros g Hg. apply Hl. right. exact Hg.
  - rewrite (one_block a v Ha). cbn [obind]. rewrite IH by (intros g Hg; apply Hl; right; exact Hg). reflexivity.
Qed.
Lemma outs_app a l1 l2 v : outs a v (l1 ++ l2) = outs a v l1 ++ outs a (states a v l1) l2.
Proof. revert v. induction l1 as [| [f |] l1 IH]; intros v; [reflexivity | |]; cbn [app outs states]; rewrite IH; reflexivity. Qed.
Lemma outs_length a l v : List.length (outs a v l) = count l.
Proof. revert v. induction l as [| [f |] l IH]; intros v; [reflexivity | |]; cbn [outs]; unfold count in *; cbn; rewrite IH; reflexivity. Qed.
(** [n] vectors in a row *)
Lemma row a n v i : (i < n)%nat -> nth i (outs a v (blocks n)) [] = map (fun x => out (wrap32 (x * 16807 ^ Z.of_nat (S i)))) v.
Proof.
  revert v i. induction n as [| n IH]; intros v i Hi; [lia |]. cbn [blocks repeat outs]. destruct i as [| i].
  - reflexivity.
  - cbn [nth]. change (repeat NBlock n) with (blocks n). rewrite IH by lia. rewrite map_map. apply map_ext. intros x. f_equal.
    apply wrap32_eq. destruct (wrap32_off (x * 16807)) as [k ->].
    rewrite (Nat2Z.inj_succ (S i)), (Z.pow_succ_r _ (Z.of_nat (S i))) by lia. exists (k * 16807 ^ Z.of_nat (S i)). ring.
Qed.
Lemma after_seed a pre f n : simd a -> seeds_ok pre -> seed_ok f ->
  exists o, noise a (pre ++ NSeed f :: blocks n) = Ok o /\
    forall i, (i < n)%nat -> vector o pre i = map (fun x => out (wrap32 (x * 16807 ^ Z.of_nat (S i)))) (lanes a (Btrunc f)).
Proof.
  intros Ha Hp Hf. eexists. split.
  - apply runs; [exact Ha |]. intros g Hg. apply in_app_or in Hg as [Hg | [Hg | Hg]].
    + apply Hp, Hg.
    + injection Hg as <-. exact Hf.
    + apply repeat_spec in Hg. discriminate.
  - intros i Hi. unfold vector. rewrite outs_app. rewrite app_nth2 by (rewrite outs_length; lia). rewrite outs_length.
    replace (count pre + i - count pre)%nat with i by lia. cbn [outs]. apply row. exact Hi.
Qed.

(** ** Bounds *)
Lemma block_bounded v : Forall (fun s => is_finite s = true /\ (Rabs (R32 s) < 1)%R) (map (fun x => out (wrap32 (x * 16807))) v).
Proof.
  apply Forall_forall. intros s Hs. apply in_map_iff in Hs as (x & <- & _). destruct (out_R (wrap32 (x * 16807))) as (F & B & _); [| auto].
  pose proof (wrap32_range (x * 16807)). lia.
Qed.
Lemma bounded a l : forall v, List.length v = lane_count a ->
  Forall (fun b => List.length b = lane_count a /\ Forall (fun s => is_finite s = true /\ (Rabs (R32 s) < 1)%R) b) (outs a v l).
Proof.
  induction l as [| [f |] l IH]; intros v Hv; cbn [outs]; [constructor | |].
  - apply IH. unfold lanes. rewrite map_length, seq_length. reflexivity.
  - constructor; [split; [rewrite map_length; exact Hv | apply block_bounded] |]. apply IH. rewrite map_length. exact Hv.
Qed.

(** ** Periods *)
Lemma same_state x y i : (4294967296 | x - y) -> out (wrap32 (x * i)) = out (wrap32 (y * i)).
Proof. intros [k H]. f_equal. apply wrap32_eq. exists (k * i). rewrite <- Z.mul_sub_distr_r, H. ring. Qed.
Lemma lane_repeats x i j : (i <= j)%nat -> (4294967296 | x * (16807 ^ Z.of_nat (j - i) - 1)) ->
  out (wrap32 (x * 16807 ^ Z.of_nat j)) = out (wrap32 (x * 16807 ^ Z.of_nat i)).
Proof.
  intros L [k H]. f_equal. apply wrap32_eq. exists (k * 16807 ^ Z.of_nat i).
  replace (Z.of_nat j) with (Z.of_nat (j - i) + Z.of_nat i) by lia. rewrite Z.pow_add_r by lia.
  replace (x * (16807 ^ Z.of_nat (j - i) * 16807 ^ Z.of_nat i) - x * 16807 ^ Z.of_nat i) with (x * (16807 ^ Z.of_nat (j - i) - 1) * 16807 ^ Z.of_nat i) by ring.
  rewrite H. ring.
Qed.
(** Two steps tell different states apart. *)
Lemma two_samples x y : out (wrap32 x) = out (wrap32 y) -> out (wrap32 (x * 16807)) = out (wrap32 (y * 16807)) -> (4294967296 | x - y).
Proof.
  intros H1 H2. apply wrap32_eq.
  pose proof (wrap32_range x) as Rx. pose proof (wrap32_range y) as Ry.
  pose proof (wrap32_range (x * 16807)) as Rx2. pose proof (wrap32_range (y * 16807)) as Ry2.
  apply out_close in H1; [| lia | lia]. apply out_close in H2; [| lia | lia].
  rewrite <- (wrap32_mul x), <- (wrap32_mul y) in H2.
  destruct (wrap32_off (wrap32 x * 16807)) as [k1 E1]. destruct (wrap32_off (wrap32 y * 16807)) as [k2 E2]. rewrite E1, E2 in H2. lia.
Qed.
Lemma odd_pow n : Z.odd (16807 ^ Z.of_nat n) = true.
Proof.
  induction n as [| n IH]; [reflexivity |]. rewrite Nat2Z.inj_succ, Z.pow_succ_r, Z.odd_mul, IH by lia. reflexivity.
Qed.
Lemma lane_differs x i j : Z.odd x = true -> (i < j)%nat ->
  out (wrap32 (x * 16807 ^ Z.of_nat i)) = out (wrap32 (x * 16807 ^ Z.of_nat j)) ->
  out (wrap32 (x * 16807 ^ Z.of_nat (S i))) = out (wrap32 (x * 16807 ^ Z.of_nat (S j))) -> (536870912 | Z.of_nat (j - i)).
Proof.
  intros O L H1 H2. apply (odd_period x); [exact O | lia |].
  assert (D : (4294967296 | x * 16807 ^ Z.of_nat j - x * 16807 ^ Z.of_nat i)).
  { apply two_samples; [symmetry; exact H1 |]. rewrite <- !Z.mul_assoc.
    replace (16807 ^ Z.of_nat j * 16807) with (16807 ^ Z.of_nat (S j)) by (rewrite Nat2Z.inj_succ, Z.pow_succ_r by lia; ring).
    replace (16807 ^ Z.of_nat i * 16807) with (16807 ^ Z.of_nat (S i)) by (rewrite Nat2Z.inj_succ, Z.pow_succ_r by lia; ring). symmetry. exact H2. }
  change 4294967296 with (2 ^ 32) in *. apply (divide_odd 32 (16807 ^ Z.of_nat i)); [lia | apply odd_pow |].
  destruct D as [k D]. exists k. rewrite <- D. assert (16807 ^ Z.of_nat j = 16807 ^ Z.of_nat (j - i) * 16807 ^ Z.of_nat i) as -> by (rewrite <- Z.pow_add_r by lia; f_equal; lia). ring.
Qed.
(** Two neighbours: one of them is odd. *)
Lemma odd_lane a k : simd a -> exists j, (j < lane_count a)%nat /\ Z.odd (k + Z.of_nat j) = true.
Proof.
  intros Ha. pose proof (simd_lanes a Ha). destruct (Z.odd k) eqn:E.
  - exists 0%nat. split; [lia |]. rewrite Z.add_0_r. exact E.
  - exists 1%nat. split; [lia |]. rewrite Z.odd_add, E. reflexivity.
Qed.
Lemma lane_at a k (g : Z -> f32) j : (j < lane_count a)%nat -> nth j (map g (lanes a k)) fzero = g (k + Z.of_nat j).
Proof.
  intros H. unfold lanes. rewrite map_map. rewrite (nth_indep _ fzero (g (k + Z.of_nat 0))) by (rewrite map_length, seq_length; exact H).
  rewrite (map_nth (fun i => g (k + Z.of_nat i)) _ 0%nat). rewrite seq_nth by exact H. reflexivity.
Qed.
(** ** Neighbours *)
Definition even_steps (v : list Z) : Prop := forall j, (S (S j) < List.length v)%nat -> (4294967296 | nth j v 0 - 2 * nth (S j) v 0 + nth (S (S j)) v 0).
Lemma even_lanes a k : even_steps (lanes a k).
Proof.
  intros j Hj. assert (N : forall i, (i < List.length (lanes a k))%nat -> nth i (lanes a k) 0 = k + Z.of_nat i).
  { intros i Hi. unfold lanes in *. rewrite map_length in Hi. rewrite (nth_indep _ 0 (k + Z.of_nat 0)) by (rewrite map_length; exact Hi).
    rewrite (map_nth (fun i => k + Z.of_nat i) _ 0%nat). rewrite seq_length in Hi. rewrite seq_nth by exact Hi. reflexivity. }
  rewrite !N by lia. exists 0. lia.
Qed.
Lemma even_step v : even_steps v -> even_steps (map (fun x => wrap32 (x * 16807)) v).
Proof.
  intros H j Hj. rewrite map_length in Hj. change 0 with (wrap32 (0 * 16807)). rewrite !(map_nth (fun x => wrap32 (x * 16807))).
  destruct (H j Hj) as [k E]. destruct (wrap32_off (nth j v 0 * 16807)) as [k1 ->]. destruct (wrap32_off (nth (S j) v 0 * 16807)) as [k2 ->].
  destruct (wrap32_off (nth (S (S j)) v 0 * 16807)) as [k3 ->]. exists (k * 16807 + k1 - 2 * k2 + k3). lia.
Qed.
Open Scope R_scope.
Lemma three_outs x y z : (Z.abs x <= 2147483648)%Z -> (Z.abs y <= 2147483648)%Z -> (Z.abs z <= 2147483648)%Z -> (4294967296 | x - 2 * y + z)%Z ->
  exists m, Rabs (R32 (out x) - 2 * R32 (out y) + R32 (out z) - 2 * IZR m) <= / 100000.
Proof.
  intros Hx Hy Hz [m E]. exists m. destruct (out_R x Hx) as (_ & _ & A & _). destruct (out_R y Hy) as (_ & _ & B & _). destruct (out_R z Hz) as (_ & _ & C & _).
  destruct scale_R as [Ec _]. rewrite bp55 in Ec.
  assert (Hm : -2 <= IZR m <= 2) by (split; apply IZR_le; lia).
  assert (D : IZR x - 2 * IZR y + IZR z = IZR m * 4294967296) by (rewrite <- mult_IZR, <- minus_IZR, <- plus_IZR, E, mult_IZR; reflexivity).
  apply Rabs_le_inv in A, B, C. apply Rabs_le. rewrite Ec in *. lra.
Qed.
