(** Properties of noise~. *)
From Verif Require Import NoiseSpec NoiseProofs NoiseProofs2 NoiseProofs3 Float32Facts.
From Coq Require Import Lia Znumtheory Reals Lra Classical_Prop.
From Flocq Require Import Core.
Open Scope Z_scope.

(** ** With SIMD *)
(** Whatever is sent to the inlet and whenever, every sample is a number between -1 and 1. *)
Theorem noise_in_range : forall a l, simd a -> seeds_ok l ->
  exists o, noise a l = Ok o /\ List.length o = count l /\
    Forall (fun b => List.length b = lane_count a /\ Forall (fun s => is_finite s = true /\ (-1 < B2R s < 1)%R) b) o.
Proof.
  intros a l Ha Hl. exists (outs a (noise_init a) l). split; [apply runs; assumption |]. split; [apply outs_length |].
  eapply Forall_impl; [| apply NoiseProofs3.bounded; unfold noise_init; apply repeat_length].
  intros b [H1 H2]. split; [exact H1 |]. eapply Forall_impl; [| exact H2]. intros s [F B]. split; [exact F |]. apply Rabs_def2 in B. lra.
Qed.
Print Assumptions noise_in_range.
(** After any history and any seed, the vectors come back after 2^29 vectors, and no two places less than that apart start the same two vectors. *)
Theorem noise_period : forall a pre f n, simd a -> seeds_ok pre -> seed_ok f ->
  exists o, noise a (pre ++ NSeed f :: blocks n) = Ok o /\
    (forall i j, (j < n)%nat -> Z.of_nat j = Z.of_nat i + 536870912 -> vector o pre j = vector o pre i) /\
    (forall i j, (i < j)%nat -> (S j < n)%nat -> Z.of_nat j < Z.of_nat i + 536870912 ->
       vector o pre i <> vector o pre j \/ vector o pre (S i) <> vector o pre (S j)).
Proof.
  intros a pre f n Ha Hp Hf. destruct (after_seed a pre f n Ha Hp Hf) as (o & Ho & V). exists o. split; [exact Ho |]. split.
  - intros i j Hj E. rewrite !V by lia. apply map_ext. intros x. apply lane_repeats; [lia |].
    apply (even_period x 0); [lia | exists x; rewrite Z.pow_0_r; lia |]. exists 1. change (2 ^ (29 - 0)) with 536870912. lia.
  - intros i j L Hj E. destruct (odd_lane a (Btrunc f) Ha) as (k & Hk & Ok).
    assert (D : ~ (nth k (vector o pre i) fzero = nth k (vector o pre j) fzero /\ nth k (vector o pre (S i)) fzero = nth k (vector o pre (S j)) fzero)).
    { rewrite !V by lia. rewrite !lane_at by exact Hk. intros [H1 H2].
      pose proof (lane_differs _ (S i) (S j) Ok ltac:(lia) H1 H2) as D. apply Z.divide_pos_le in D; lia. }
    destruct (Classical_Prop.classic (vector o pre i = vector o pre j)) as [E1 | N1]; [| left; exact N1].
    right. intros E2. apply D. rewrite E1, E2. split; reflexivity.
Qed.
Print Assumptions noise_period.
Example noise_case : simd SSE /\ seed_ok (of_int 1234567) /\ noise SSE [NSeed (of_int 2147483); NBlock] = Ok [map out (map wrap32 [36092746781; 36092763588; 36092780395; 36092797202])].
Proof.
  split; [discriminate |]. split; [vm_compute; split; [reflexivity | split; discriminate] |].
  assert (H : seed_ok (of_int 2147483)) by (vm_compute; split; [reflexivity | split; discriminate]).
  assert (E : Btrunc (of_int 2147483) = 2147483) by (vm_compute; reflexivity).
  unfold noise. rewrite (runs SSE); [| discriminate | intros g [Hg | [Hg | []]]; [injection Hg as <-; exact H | discriminate]].
  cbn [outs]. rewrite E. reflexivity.
Qed.
(** The samples are not independent: the second differences within a vector are even whole numbers, but for rounding. *)
Theorem noise_neighbours_refuted : forall a l o b j, simd a -> seeds_ok l -> noise a l = Ok o -> In b o -> (S (S j) < lane_count a)%nat ->
  exists m, (Rabs (B2R (nth j b fzero) - 2 * B2R (nth (S j) b fzero) + B2R (nth (S (S j)) b fzero) - 2 * IZR m) <= / 100000)%R.
Proof.
  intros a l o b j Ha Hl Ho Hb Hj. unfold noise in Ho. rewrite (runs a l Ha Hl) in Ho. injection Ho as <-.
  assert (G : forall v, List.length v = lane_count a -> even_steps v -> In b (outs a v l) -> exists w, List.length w = lane_count a /\ even_steps w /\
              b = map out (map (fun x => wrap32 (x * 16807)) w)).
  { clear Hb Hl. induction l as [| [f |] l IH]; intros v Lv Ev Hb; cbn [outs] in Hb; [contradiction | |].
    - eapply IH; [| | exact Hb]; [unfold lanes; rewrite map_length, seq_length; reflexivity | apply even_lanes].
    - destruct Hb as [<- | Hb].
      + exists v. rewrite map_map. auto.
      + eapply IH; [| | exact Hb]; [rewrite map_length; exact Lv | apply even_step, Ev]. }
  destruct (G (noise_init a)) as (w & Lw & Ew & ->).
  - apply repeat_length.
  - intros i _. unfold noise_init. exists 0. rewrite !nth_repeat. reflexivity.
  - exact Hb.
  - apply even_step in Ew. specialize (Ew j). rewrite map_length, Lw in Ew. specialize (Ew Hj).
    set (u := map (fun x => wrap32 (x * 16807)) w) in *.
    assert (O : forall i, nth i (map out u) fzero = out (nth i u 0)).
    { intros i. assert (Z0 : fzero = out 0) by (symmetry; apply (out_R 0); lia). rewrite Z0 at 1. apply map_nth. }
    rewrite !O. assert (B : forall i, Z.abs (nth i u 0) <= 2147483648).
    { intros i. destruct (nth_in_or_default i u 0) as [Hi | ->]; [| lia]. apply in_map_iff in Hi as (x & Hx & _). rewrite <- Hx.
      pose proof (wrap32_range (x * 16807)). lia. }
    apply three_outs; auto.
Qed.
Print Assumptions noise_neighbours_refuted.
(** For a seed 2^v q less j, sample j of the vectors comes back after 2^(29-v) vectors; for the seed -j it is always 0. *)
Theorem noise_lane_refuted : forall a pre f n j v, simd a -> seeds_ok pre -> seed_ok f -> (j < lane_count a)%nat ->
  0 <= v <= 28 -> (2 ^ v | Btrunc f + Z.of_nat j) ->
  exists o, noise a (pre ++ NSeed f :: blocks n) = Ok o /\
    (forall i i', (i' < n)%nat -> Z.of_nat i' = Z.of_nat i + 2 ^ (29 - v) -> nth j (vector o pre i') fzero = nth j (vector o pre i) fzero) /\
    (Btrunc f + Z.of_nat j = 0 -> forall i, (i < n)%nat -> nth j (vector o pre i) fzero = fzero).
Proof.
  intros a pre f n j v Ha Hp Hf Hj Hv D. destruct (after_seed a pre f n Ha Hp Hf) as (o & Ho & V). exists o. split; [exact Ho |].
  assert (0 < 2 ^ (29 - v)) by (apply Z.pow_pos_nonneg; lia). split.
  - intros i i' L E. rewrite !V by lia. rewrite !lane_at by exact Hj. apply lane_repeats; [lia |]. apply (even_period _ v); [exact Hv | exact D |].
    exists 1. lia.
  - intros E i Hi. rewrite V by exact Hi. rewrite lane_at by exact Hj. rewrite E, Z.mul_0_l. apply (out_R 0); reflexivity || lia.
Qed.
Print Assumptions noise_lane_refuted.
(** The seed 2^22, which random may draw: the first of the four samples comes back every 128 vectors. *)
Example noise_lane_case : seed_ok (of_int 4194304) /\ (2 ^ 22 | Btrunc (of_int 4194304) + Z.of_nat 0) /\ 2 ^ (29 - 22) = 128.
Proof.
  split; [vm_compute; split; [reflexivity | split; discriminate] |]. split; [| reflexivity].
  exists 1. vm_compute. reflexivity.
Qed.

(** ** Without SIMD *)
(** The product of ints overflows in one of the first three samples, whatever the seed, unless it is 0: then there is silence. *)
Theorem noise_scalar_refuted :
  (forall pre f n, seed_ok f -> Btrunc f <> 0 -> seeds_ok pre -> (3 <= n)%nat -> noise Scalar (pre ++ NSeed f :: blocks n) = UB) /\
  (forall n, noise Scalar (blocks n) = Ok (repeat [fzero] n)).
Proof.
  assert (Step : forall x l, noise_run Scalar [x] (NBlock :: l) =
            if ((-2147483648 <=? x * 16807) && (x * 16807 <=? 2147483647))%bool
            then let! r := noise_run Scalar [x * 16807] l in Ok ([out (x * 16807)] :: r) else UB).
  { intros x l. cbn [noise_run]. unfold noise_block. cbn [map all_ok hv_mul_i]. unfold c_int.
    destruct ((-2147483648 <=? x * 16807) && (x * 16807 <=? 2147483647))%bool; reflexivity. }
  assert (U : forall x n, x <> 0 -> (3 <= n)%nat -> noise_run Scalar [x] (blocks n) = UB).
  { intros x n Hx Hn. destruct n as [| [| [| n]]]; try lia. unfold blocks. cbn [repeat]. rewrite !Step.
    assert (H : ((-2147483648 <=? x * 16807 * 16807 * 16807) && (x * 16807 * 16807 * 16807 <=? 2147483647))%bool = false).
    { apply Bool.andb_false_iff. destruct (Z_lt_le_dec x 0); [left | right]; apply Z.leb_gt; lia. }
    rewrite H. repeat match goal with |- context [if ?b then _ else _] => destruct b; [| reflexivity] end. reflexivity. }
  split.
  - intros pre f n Hf Nz Hp Hn. unfold noise.
    assert (G : forall v, (exists x, v = [x]) -> seeds_ok pre -> noise_run Scalar v (pre ++ NSeed f :: blocks n) = UB).
    { induction pre as [| [g |] pre IH]; intros v Hv Hs; cbn [app].
      - cbn [noise_run]. unfold sVari_onMessage. rewrite (to_int_ok f (proj1 Hf) (proj2 Hf)). cbn [obind]. rewrite one_int. cbn [obind sVari_update]. apply U; assumption.
      - cbn [noise_run]. unfold sVari_onMessage. destruct (Hs g (or_introl eq_refl)) as [G1 G2]. rewrite (to_int_ok g G1 G2). cbn [obind]. rewrite one_int. cbn [obind sVari_update].
        apply IH; [intros h Hh; apply Hp; right; exact Hh | eexists; reflexivity | intros h Hh; apply Hs; right; exact Hh].
      - destruct Hv as [x ->]. change (NBlock :: pre ++ NSeed f :: blocks n) with (NBlock :: (pre ++ NSeed f :: blocks n)). rewrite Step.
        destruct ((-2147483648 <=? x * 16807) && (x * 16807 <=? 2147483647))%bool; [| reflexivity].
        rewrite IH; [reflexivity | intros h Hh; apply Hp; right; exact Hh | eexists; reflexivity | intros h Hh; apply Hs; right; exact Hh]. }
    apply G; [eexists; reflexivity | exact Hp].
  - intros n. unfold noise, noise_init. cbn [lane_count repeat]. induction n as [| n IH]; [reflexivity |].
    unfold blocks. cbn [repeat]. rewrite Step. change (0 * 16807) with 0. change (repeat NBlock n) with (blocks n). rewrite IH.
    assert (Z0 : out 0 = fzero) by (apply (out_R 0); reflexivity || lia). rewrite Z0. reflexivity.
Qed.
Print Assumptions noise_scalar_refuted.
Example noise_scalar_case : seed_ok (of_int 1) /\ Btrunc (of_int 1) <> 0 /\ noise Scalar (NSeed (of_int 1) :: blocks 3) = UB.
Proof.
  assert (S1 : seed_ok (of_int 1)) by (vm_compute; split; [reflexivity | split; discriminate]).
  assert (E : Btrunc (of_int 1) <> 0) by (vm_compute; discriminate).
  split; [exact S1 |]. split; [exact E |]. apply (proj1 noise_scalar_refuted []); [exact S1 | exact E | intros g [] | lia].
Qed.
