(** Start messages of [tabwrite~]: writer position and stop time. *)
From Verif Require Import TableModel TableSpec TableProofs SigTabModel SigTabSpec SigTabProofs RecorderModel RecorderSpec TimeSpec Float32Facts Float64Facts TimeProofs RecorderProofs.
From Flocq Require Import Core.
From Coq Require Import Reals Lra.
Open Scope Z_scope.

Definition spm_of (sr : f64) : f32 := divide (narrow sr) (of_int 1000).
Definition head_of (f : f32) : outcome Z := if fleb fzero f then to_u32 f else Ok STOPPED.

Lemma ms_nan sr r : whole_rate sr r -> 1 <= r <= 1048576 -> ms_to_samples sr B754_nan = Ok 0.
Proof.
  intros W Hr. transitivity (ms_to_samples sr fzero); [reflexivity | ].
  rewrite (ms_to_samples_exact sr r fzero W ltac:(lia) eq_refl); change (R32 fzero) with 0%R; rewrite Rmax_left by lra; unfold samples_in;
    replace (0 * IZR r / 1000)%R with 0%R by lra; [now rewrite (Zfloor_IZR 0) | lra].
Qed.
Lemma divide_nan k : is_finite k = true -> (R32 k <> 0)%R -> divide B754_nan k = B754_nan.
Proof. intros F N. rewrite divide_R by assumption. reflexivity. Qed.
Lemma start_spec sr r size f : whole_rate sr r -> 1 <= r <= 1048576 -> 0 <= size <= 2097152 -> number_ok f ->
  exists h d, head_of f = Ok h /\ stop_delay sr (of_int size) (spm_of sr) f = Ok d /\ 0 <= d /\
    (h = STOPPED \/ 0 <= h < STOPPED /\ (d = 0 \/ h + d <= size)).
Proof.
  intros W Hr Hs [ -> | [F A]].
  - exists STOPPED, 0. split; [reflexivity | ]. destruct (spm_ok sr r W Hr) as [Fp Np].
    split; [ | split; [lia | now left]]. unfold stop_delay, spm_of.
    change (fmul (fsub B754_nan (of_int size)) (of_int (-1))) with (@B754_nan 24 128).
    rewrite divide_nan; [apply (ms_nan sr r W Hr) | exact Fp | ]. destruct Np as [L _]. rewrite TimeProofs2.bp24 in L.
    assert (1 <= IZR r)%R by (apply IZR_le; lia). cbv zeta in *. lra.
  - destruct (stop_delay_spec sr r size f W Hr Hs F A) as (d & E & D & D0 & D1).
    unfold head_of. unfold fleb. rewrite Bleb_correct by (reflexivity || exact F). change (R32 fzero) with 0%R.
    apply Rabs_le_inv in A.
    destruct (Rle_bool_spec 0 (R32 f)) as [P | P].
    + assert (T : to_u32 f = Ok (Zfloor (R32 f))).
      { unfold to_u32. rewrite F, trunc_R, Ztrunc_floor by exact P.
        assert (0 <= Zfloor (R32 f)) by (apply Zfloor_lub; exact P).
        assert (Zfloor (R32 f) < 4294967296) by (apply lt_IZR; pose proof (Zfloor_lb (R32 f)); lra).
        replace (0 <=? Zfloor (R32 f)) with true by (symmetry; apply Z.leb_le; lia).
        replace (Zfloor (R32 f) <? 4294967296) with true by (symmetry; apply Z.ltb_lt; lia). reflexivity. }
      exists (Zfloor (R32 f)), d. split; [exact T | ]. split; [exact E | ]. split; [lia | ]. right.
      pose proof (Zfloor_lb (R32 f)). assert (0 <= Zfloor (R32 f)) by (apply Zfloor_lub; exact P).
      assert (Zfloor (R32 f) < STOPPED) by (apply lt_IZR; unfold STOPPED; lra).
      split; [lia | ]. destruct (Rle_lt_dec (IZR size) (R32 f)) as [L | L]; [left; now apply D0 | right].
      destruct D1 as [_ U]; [lra | ].
      assert (IZR size <= 2097152)%R by (apply IZR_le; lia).
      assert (Zfloor (R32 f) + d < size + 1); [ | lia]. apply lt_IZR. rewrite !plus_IZR. lra.
    + exists STOPPED, d. repeat split; auto; lia.
Qed.
Lemma start_whole sr r size h : whole_rate sr r -> 1 <= r <= 1048576 -> 0 <= size <= 2097152 -> 0 <= h <= size ->
  exists d, head_of (of_int h) = Ok h /\ stop_delay sr (of_int size) (spm_of sr) (of_int h) = Ok d /\ size - h - 1 <= d <= size - h /\ 0 <= d.
Proof.
  intros W Hr Hs Hh. destruct (of_int_exact h) as [E F]; [lia | ].
  assert (B : (0 <= IZR h <= IZR size)%R) by (split; apply IZR_le; lia).
  assert (IZR size <= 2097152)%R by (apply IZR_le; lia).
  destruct (stop_delay_spec sr r size (of_int h) W Hr Hs F) as (d & E1 & D & D0 & D1); [apply Rabs_le; lra | ].
  exists d. split; [ | split; [exact E1 | split; [ | lia]]].
  - unfold head_of, fleb. rewrite Bleb_correct by (reflexivity || exact F). change (R32 fzero) with 0%R. rewrite E, Rle_bool_true by lra.
    unfold to_u32. rewrite F, trunc_R, E, Ztrunc_IZR.
    replace (0 <=? h) with true by (symmetry; apply Z.leb_le; lia). replace (h <? 4294967296) with true by (symmetry; apply Z.ltb_lt; lia). reflexivity.
  - rewrite E in D1. destruct D1 as [L U]; [lra | ].
    assert (size - h - 2 < d < size - h + 1); [ | lia]. split; apply lt_IZR; [rewrite !minus_IZR | rewrite plus_IZR, minus_IZR]; lra.
Qed.
