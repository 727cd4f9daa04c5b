(** The period of metro; timer. *)
From Verif Require Import PatchProofs PatchProofs2 PatchProofs3 PatchProofs4 PatchProofs7 PatchSpec PatchSpec2 Float32Facts Float64Facts RecorderProofs.
From Coq Require Import Lia Reals Lra.
From Flocq Require Import Core.
Open Scope Z_scope.

Lemma rnd32_int z : Z.abs z <= 2 ^ 24 -> rnd32 (IZR z) = IZR z.
Proof.
  intros H. apply round_generic; [apply valid_rnd_round_mode |].
  replace (IZR z) with (IZR z * bpow radix2 0)%R by (cbn; lra). apply fmt32; lia.
Qed.
Lemma rate_narrow sr r : whole_rate sr r -> 1 <= r <= 2 ^ 20 -> R32 (narrow sr) = IZR r /\ is_finite (narrow sr) = true.
Proof.
  intros [Fs Er] Hr. assert (B : (1 <= IZR r <= 1048576)%R) by (split; apply IZR_le; lia).
  destruct (narrow_R sr 20 Fs) as [E1 F1]; [rewrite Er; replace (bpow radix2 20) with 1048576%R by reflexivity; lra | lia |].
  rewrite E1, Er. split; [apply rnd32_int; lia | exact F1].
Qed.
(** [rate]: a whole number of samples per millisecond. *)
Lemma rate_exact E q : whole_rate (e_sr E) (1000 * q) -> 1 <= q <= 1000 -> metro_rate E = of_int q.
Proof.
  intros Hr Hq. destruct (rate_narrow _ _ Hr) as [A1 A2]; [lia |].
  destruct (of_int_exact 1000) as [B1 B2]; [lia |].
  assert (Q : (IZR (1000 * q) / 1000 = IZR q)%R) by (rewrite mult_IZR; lra).
  assert (B : (1 <= IZR q <= 1000)%R) by (split; apply IZR_le; lia).
  destruct (fdiv_R' (narrow (e_sr E)) (of_int 1000) 10 A2) as [C1 C2];
    [rewrite B1; lra | rewrite A1, B1, Q; rewrite Rabs_pos_eq by lra; replace (bpow radix2 10) with 1024%R by reflexivity; lra | lia |].
  unfold metro_rate. apply of_int_unique; [lia | exact C2 | rewrite C1, A1, B1, Q; apply rnd32_int; lia | lia].
Qed.
Lemma fmul_whole a b : 0 < a -> 0 < b -> a * b <= 2 ^ 24 -> fmul (of_int a) (of_int b) = of_int (a * b).
Proof.
  intros Ha Hb Hab. assert (a <= 2 ^ 24) by nia. assert (b <= 2 ^ 24) by nia.
  destruct (of_int_exact a) as [A1 A2]; [lia |]. destruct (of_int_exact b) as [B1 B2]; [lia |].
  destruct (fmul_exact (of_int a) (of_int b) (a * b) 0 A2 B2) as [C1 C2]; [rewrite A1, B1, mult_IZR; cbn; lra | lia | lia |].
  apply of_int_unique; [lia | exact C2 | rewrite C1; cbn; lra | nia].
Qed.
Lemma fmax_zero z : 0 < z <= 2 ^ 24 -> fmax fzero (of_int z) = of_int z.
Proof.
  intros Hz. destruct (of_int_exact z) as [A1 A2]; [lia |]. unfold fmax. cbn [is_nan fzero].
  replace (is_nan (of_int z)) with false by (destruct (of_int z); try discriminate A2; reflexivity).
  pose proof (of_int_fltb 0 z ltac:(lia) ltac:(lia)) as H. change (of_int 0) with fzero in H. change (B754_zero false) with fzero. rewrite H.
  destruct (Z.ltb_spec 0 z); [reflexivity | lia].
Qed.
Lemma to_u32_whole z : 0 <= z <= 2 ^ 24 -> to_u32 (of_int z) = Ok z.
Proof.
  intros Hz. destruct (of_int_exact z) as [A1 A2]; [lia |]. unfold to_u32. rewrite A2, trunc_R, A1, Ztrunc_IZR.
  destruct (Z.leb_spec 0 z); [| lia]. destruct (Z.ltb_spec z 4294967296); [reflexivity | lia].
Qed.
Lemma period_exact E q n : whole_rate (e_sr E) (1000 * q) -> 1 <= q <= 1000 -> 1 <= n -> n * q <= 2 ^ 24 ->
  metro_period E (of_int n) = Ok (n * q).
Proof.
  intros Hr Hq Hn Hnq. unfold metro_period. rewrite (rate_exact E q Hr Hq), fmul_whole by lia.
  rewrite of_int_fmax1 by nia. rewrite fmax_zero by nia. apply to_u32_whole. nia.
Qed.

(** ** timer *)
Definition timer_nodes (t0 a b : f32) : list prim :=
  [PPass; PPass; PPass; PSystem; PBox [[TE (word "currentTime")]]; PBin SUBTRACT t0; PSystem; PBox [[TE (word "currentTime")]];
   PBin DIVIDE a; PSeq [CA; CA]; PSystem; PBox [[TE (word "samplerate")]]; PBinK DIVIDE (of_int 1000)].
Inductive timer_inv : Z -> world -> Prop :=
| timer_i t0 a s : timer_inv t0 (mkWorld (timer_nodes (of_int t0) a fzero) [] s).
(** What the patch answers. *)
Definition timer_value (E : env) (t0 t : Z) : f32 := fdiv (fsub (of_int t) (of_int t0)) (metro_rate E).
Lemma timer_sends E l : feqb (metro_rate E) fzero = false ->
  sends E timer_pd (map timer_event l) (timer_spec (timer_value E) 0 l).
Proof.
  intros Hr.
  destruct (simulate E (flatten timer_pd 0) Z _ timer_event (timer_spec (timer_value E)) timer_inv (fun _ _ => True))
    with (s := 0) (l := l) (w := boot (flatten timer_pd 0))
    as (w & Hp & Hs); [reflexivity | | exact I | exact (timer_i 0 fzero [])
                      | refine (sends_of E _ _ _ w _ Hp Hs); reflexivity].
  intros v [t i] l' w _ Hi; destruct Hi as [t0 a s]. norm_in Hr.
  destruct i; cbn [timer_event timer_spec].
  - eexists t, [], _. split; [apply plays_one; norm; run consts |].
    split; [constructor | split; [cbn; now rewrite log_nil | split; [reflexivity | exact I]]].
  - eexists t0, [_], _. split; [apply plays_one; norm; run ltac:(first [rewrite thousand | rewrite Hr | consts]) |].
    split; [constructor | split; [reflexivity | split; [reflexivity | exact I]]].
Qed.
(** Exact while the times are below 2^24 samples. *)
Lemma timer_exact E q t0 t : whole_rate (e_sr E) (1000 * q) -> 1 <= q <= 1000 -> 0 <= t0 <= 2 ^ 24 -> 0 <= t <= 2 ^ 24 ->
  is_finite (timer_value E t0 t) = true /\ R32 (timer_value E t0 t) = rnd32 (IZR (t - t0) / IZR q).
Proof.
  intros Hr Hq H0 H1. unfold timer_value. rewrite (rate_exact E q Hr Hq).
  destruct (of_int_exact t) as [A1 A2]; [lia |]. destruct (of_int_exact t0) as [B1 B2]; [lia |]. destruct (of_int_exact q) as [C1 C2]; [lia |].
  assert (S : Z.abs (t - t0) <= 2 ^ 24) by lia.
  assert (SR : (Rabs (IZR (t - t0)) <= bpow radix2 24)%R).
  { rewrite <- abs_IZR. change (bpow radix2 24) with (IZR (2 ^ 24)). apply IZR_le. exact S. }
  destruct (fsub_R (of_int t) (of_int t0) 24 A2 B2) as [D1 D2]; [rewrite A1, B1, <- minus_IZR; exact SR | lia |].
  rewrite A1, B1, <- minus_IZR, (rnd32_int _ S) in D1.
  assert (Q : (1 <= IZR q)%R) by (apply IZR_le; lia).
  destruct (fdiv_R' (fsub (of_int t) (of_int t0)) (of_int q) 24 D2) as [E1 E2]; [rewrite C1; lra | | lia |].
  - rewrite D1, C1. unfold Rdiv. rewrite Rabs_mult, (Rabs_pos_eq (/ IZR q)) by (apply Rlt_le, Rinv_0_lt_compat; lra).
    apply Rle_trans with (Rabs (IZR (t - t0)) * 1)%R; [| lra]. apply Rmult_le_compat_l; [apply Rabs_pos |].
    rewrite <- Rinv_1. apply Rinv_le; lra.
  - split; [exact E2 | rewrite E1, D1, C1; reflexivity].
Qed.
