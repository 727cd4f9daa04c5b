(** Round trips and message times. *)
From Verif Require Import TimeModel TimeSpec Float32Facts Float64Facts TimeProofs.
From Flocq Require Import Core.
From Coq Require Import Reals Lra.
Open Scope R_scope.

Lemma bp24 : bpow radix2 (-24) = / 16777216. Proof. reflexivity. Qed.
Lemma bp53 : bpow radix2 (-53) = / 9007199254740992. Proof. reflexivity. Qed.
Lemma bp100 : bpow radix2 (-100) < / 1000000000000. Proof. apply Rle_lt_trans with (bpow radix2 (-50)); [apply bpow_le; lia | ]. replace (bpow radix2 (-50)) with (/ 1125899906842624) by reflexivity. lra. Qed.

(** (n samples in ms) * rate / 1000 is almost n. *)
Lemma samples_to_ms_near sr n : rate_within 1 1000000000 sr -> (0 <= n < 4294967296)%Z ->
  is_finite (samples_to_ms sr n) = true /\ 0 <= R32 (samples_to_ms sr n) /\
  near (/ 16777216 + / 1000000000000000) (IZR n) (samples_in (R32 (samples_to_ms sr n)) (R64 sr)).
Proof.
  intros [Fs Hr] Hn. unfold samples_to_ms, samples_in. set (rho := R64 sr) in *.
  destruct (d_of_int_exact n) as [En Fn]; [lia | ].
  assert (N0 : 0 <= IZR n) by (apply IZR_le; lia). assert (N1 : IZR n <= 4294967295) by (apply IZR_le; lia).
  destruct (dmul_R (d_of_int 1000) (d_of_int n) 60 (proj2 d1000) Fn) as [E1 F1]; [ | lia | ].
  { rewrite En, (proj1 d1000). replace (bpow radix2 60) with 1152921504606846976 by reflexivity. lra. }
  rewrite En, (proj1 d1000) in E1.
  rewrite round64_id in E1 by (rewrite <- mult_IZR; apply fmt64_int; lia).
  assert (Q0 : 0 <= 1000 * IZR n / rho) by (apply Rmult_le_pos; [lra | ]; left; apply Rinv_0_lt_compat; lra).
  assert (Q1 : 1000 * IZR n / rho <= 1000 * IZR n).
  { apply Rmult_le_reg_r with rho; [lra | ]. unfold Rdiv. rewrite Rmult_assoc, Rinv_l by lra. nra. }
  destruct (ddiv_R (dmul (d_of_int 1000) (d_of_int n)) sr 60 F1) as [E2 F2]; [fold rho; lra | | lia | ].
  { rewrite E1. fold rho. split; [exact Q0 | ]. replace (bpow radix2 60) with 1152921504606846976 by reflexivity. lra. }
  rewrite E1 in E2. fold rho in E2.
  destruct (round64_lt (1000 * IZR n / rho) 60) as [B1 B2]; [split; [exact Q0 | ]; replace (bpow radix2 60) with 1152921504606846976 by reflexivity; lra | lia | ].
  destruct (narrow_R (ddiv (dmul (d_of_int 1000) (d_of_int n)) sr) 60 F2) as [E3 F3]; [rewrite E2; split; assumption | lia | ].
  split; [exact F3 | ]. rewrite E3, E2.
  set (q := 1000 * IZR n / rho) in *. set (y := round radix2 fexp64 (round_mode mode_NE) q) in *.
  split. { rewrite <- round32_0. now apply round32_le. }
  destruct (Z.eq_dec n 0) as [-> | Nz].
  { assert (q = 0) as Eq by (unfold q; lra). assert (y = 0) as Ey by (unfold y; rewrite Eq; apply round64_0). rewrite Ey, round32_0. unfold near. split; lra. }
  assert (N2 : 1 <= IZR n) by (apply IZR_le; lia).
  assert (Q2 : / 1000000 <= q). { unfold q. apply Rmult_le_reg_r with rho; [lra | ]. unfold Rdiv. rewrite (Rmult_assoc _ (/ rho)), Rinv_l by lra. lra. }
  pose proof bp100 as B100.
  assert (Y : near (bpow radix2 (-53)) q y) by (apply round64_near; lra).
  assert (Y0 : q / 2 <= y) by (apply (near_pos (bpow radix2 (-53))); [rewrite bp53; lra | lra | exact Y]).
  assert (M : near (bpow radix2 (-24)) y (round radix2 fexp32 (round_mode mode_NE) y)) by (apply round32_near; lra).
  pose proof (near_trans _ _ _ _ _ ltac:(apply bpow_ge_0) ltac:(split; [apply bpow_ge_0 | rewrite bp24; lra]) Q0 Y M) as T.
  apply (near_mult _ _ _ (rho / 1000)) in T; [ | lra].
  replace (q * (rho / 1000)) with (IZR n) in T by (unfold q; field; lra).
  replace (round radix2 fexp32 (round_mode mode_NE) y * rho / 1000) with (round radix2 fexp32 (round_mode mode_NE) y * (rho / 1000)) by lra.
  eapply near_weaken; [ | exact N0 | exact T]. rewrite bp24, bp53. lra.
Qed.

Lemma round_trip sr r n : whole_rate sr r -> (1 <= r < 2 ^ 27)%Z -> (0 <= n <= 2 ^ 23)%Z ->
  ms_to_samples sr (samples_to_ms sr n) = Ok n \/ ms_to_samples sr (samples_to_ms sr n) = Ok (n - 1)%Z.
Proof.
  intros W Hr Hn. pose proof W as [Fs Er].
  destruct (samples_to_ms_near sr n) as (F & P & T); [ | lia | ].
  { split; [exact Fs | ]. rewrite Er. split; apply IZR_le; lia. }
  rewrite Er in T. assert (N0 : 0 <= IZR n) by (apply IZR_le; lia). assert (N1 : IZR n <= 8388608) by (apply IZR_le; lia).
  set (ms := samples_to_ms sr n) in *. set (x := samples_in (R32 ms) (IZR r)) in *. destruct T as [L U].
  assert (L' : IZR n - 1 < x) by lra. assert (U' : x < IZR n + 1) by lra.
  assert (Em : samples_in (Rmax 0 (R32 ms)) (IZR r) = x) by (unfold x; now rewrite Rmax_right).
  assert (0 <= x).
  { unfold x, samples_in. apply Rmult_le_pos; [apply Rmult_le_pos; [exact P | apply IZR_le; lia] | lra]. }
  rewrite (ms_to_samples_exact sr r ms W Hr F); rewrite Em; [ | lra].
  assert (FL : (n - 1 <= Zfloor x)%Z) by (apply Zfloor_lub; rewrite minus_IZR; lra).
  assert (FU : (Zfloor x < n + 1)%Z). { apply lt_IZR. rewrite plus_IZR. pose proof (Zfloor_lb x). lra. }
  destruct (Z.eq_dec (Zfloor x) n) as [-> | Ne]; [now left | right]. f_equal. lia.
Qed.

(** ** Message delays *)
Lemma ratio_ok sr : rate_within 1 1000000000 sr ->
  let q := ddiv sr (d_of_int 1000) in is_finite q = true /\ near (bpow radix2 (-53)) (R64 sr / 1000) (R64 q) /\ R64 q <= 2000000.
Proof.
  intros [Fs Hr]. cbv zeta. destruct (ddiv_R sr (d_of_int 1000) 30 Fs) as [E F]; [rewrite (proj1 d1000); lra | | lia | ].
  { rewrite (proj1 d1000). replace (bpow radix2 30) with 1073741824 by reflexivity. lra. }
  rewrite (proj1 d1000) in E. rewrite E. split; [exact F | ]. pose proof bp100.
  assert (T : near (bpow radix2 (-53)) (R64 sr / 1000) (round radix2 fexp64 (round_mode mode_NE) (R64 sr / 1000))) by (apply round64_near; lra).
  split; [exact T | ]. destruct T as [_ U]. rewrite bp53 in U. lra.
Qed.
Definition delay_product (sr delay : f64) : R := R64 (dmul (dmax dzero delay) (ddiv sr (d_of_int 1000))).
Lemma product_ok sr delay : rate_within 1 1000000000 sr -> is_finite delay = true -> 0 <= R64 delay <= 10000000000 ->
  is_finite (dmul (dmax dzero delay) (ddiv sr (d_of_int 1000))) = true /\
  delay_product sr delay = round radix2 fexp64 (round_mode mode_NE) (R64 delay * R64 (ddiv sr (d_of_int 1000))) /\ 0 <= delay_product sr delay.
Proof.
  intros W F H. destruct (ratio_ok sr W) as (Fq & [T _] & Uq). destruct W as [Fs Hr]. destruct (dmax0 delay F) as [Fd Ed]. rewrite Rmax_right in Ed by lra.
  set (q := ddiv sr (d_of_int 1000)) in *. rewrite bp53 in T.
  assert (Pq : 0 <= R64 q) by lra.
  destruct (dmul_R (dmax dzero delay) q 60 Fd Fq) as [E F']; [ | lia | ].
  { rewrite Ed. split; [now apply Rmult_le_pos | ]. replace (bpow radix2 60) with 1152921504606846976 by reflexivity. nra. }
  rewrite Ed in E. unfold delay_product. fold q. split; [exact F' | ]. split; [exact E | ]. rewrite E, <- round64_0. apply round64_le. now apply Rmult_le_pos.
Qed.
Lemma product_near sr delay : rate_within 1 1000000000 sr -> is_finite delay = true -> 0 <= R64 delay <= 10000000000 ->
  let x := samples_in (R64 delay) (R64 sr) in let n := Zfloor (delay_product sr delay) in
  x * (1 - / 4000000000000000) - 1 < IZR n <= x * (1 + / 4000000000000000).
Proof.
  intros W F H. cbv zeta. destruct (product_ok sr delay W F H) as (_ & E & P). destruct (ratio_ok sr W) as (Fq & T & Uq).
  pose proof W as [Fs Hr]. unfold samples_in. set (q := ddiv sr (d_of_int 1000)) in *. set (x := R64 delay * R64 sr / 1000) in *.
  assert (Px : 0 <= x) by (unfold x; apply Rmult_le_pos; [apply Rmult_le_pos; lra | lra]).
  apply (near_mult _ _ _ (R64 delay)) in T; [ | lra].
  replace (R64 sr / 1000 * R64 delay) with x in T by (unfold x; lra). rewrite (Rmult_comm (R64 q)) in T.
  set (K := R64 delay * R64 q) in *.
  pose proof T as T'. destruct T' as [T1 T2]. rewrite bp53 in T1, T2.
  assert (PK : 0 <= K) by lra.
  pose proof (Zfloor_lb (delay_product sr delay)) as FL. pose proof (Zfloor_ub (delay_product sr delay)) as FU.
  destruct (Rlt_le_dec K (bpow radix2 (-100))) as [S | S].
  - assert (Y : delay_product sr delay <= bpow radix2 (-100)) by (rewrite E; apply round64_lt; [lra | lia]).
    pose proof bp100. assert (Zfloor (delay_product sr delay) = 0%Z) as -> by (apply Zfloor_imp; rewrite plus_IZR; lra). lra.
  - pose proof (round64_near K S) as N. rewrite <- E in N.
    pose proof (near_trans _ _ _ _ _ ltac:(apply bpow_ge_0) ltac:(split; [apply bpow_ge_0 | rewrite bp53; lra]) Px T N) as [A B].
    rewrite bp53 in A, B. split; nra.
Qed.
(** Exact when a millisecond is a whole number of samples and the delay a whole number of milliseconds. *)
Lemma product_exact sr k m delay : whole_rate sr (1000 * k) -> (1 <= k <= 1000000)%Z -> is_finite delay = true -> R64 delay = IZR m -> (0 <= m <= 9000000000)%Z ->
  delay_product sr delay = IZR (m * k).
Proof.
  intros [Fs Er] Hk F Em Hm.
  assert (W : rate_within 1 1000000000 sr) by (split; [exact Fs | rewrite Er; split; apply IZR_le; lia]).
  destruct (product_ok sr delay W F) as (_ & E & _); [rewrite Em; split; apply IZR_le; lia | ].
  destruct (ddiv_R sr (d_of_int 1000) 30 Fs) as [Eq Fq]; [rewrite (proj1 d1000); lra | | lia | ].
  { rewrite (proj1 d1000), Er. replace (bpow radix2 30) with 1073741824 by reflexivity.
    assert (1000 <= IZR (1000 * k) <= 1000000000) by (split; apply IZR_le; lia). lra. }
  rewrite (proj1 d1000), Er in Eq. replace (IZR (1000 * k) / 1000) with (IZR k) in Eq by (rewrite mult_IZR; field).
  rewrite round64_id in Eq by (apply fmt64_int; lia). rewrite E, Eq, Em, <- mult_IZR. apply round64_id, fmt64_int. nia.
Qed.
Lemma product_mono sr d d' : rate_within 1 1000000000 sr -> is_finite d = true -> is_finite d' = true -> 0 <= R64 d <= R64 d' -> R64 d' <= 10000000000 ->
  delay_product sr d <= delay_product sr d'.
Proof.
  intros W F F' H H'. destruct (product_ok sr d W F) as (_ & -> & _); [lra | ]. destruct (product_ok sr d' W F') as (_ & -> & _); [lra | ].
  destruct (ratio_ok sr W) as (Fq & [T _] & Uq). destruct W as [Fs Hr]. rewrite bp53 in T. apply round64_le. apply Rmult_le_compat_r; lra.
Qed.
Lemma dleb0 d : is_finite d = true -> dleb dzero d = Rle_bool 0 (R64 d).
Proof. intros F. unfold dleb. rewrite Bleb_correct by (reflexivity || exact F). reflexivity. Qed.
Lemma message_time_R sr start d : rate_within 1 1000000000 sr -> is_finite d = true -> 0 <= R64 d <= 10000000000 ->
  delay_product sr d < 4294967296 -> message_time sr start d = Ok (u32 (start + Zfloor (delay_product sr d))).
Proof.
  intros W F H L. unfold message_time. rewrite dleb0 by exact F. rewrite Rle_bool_true by lra.
  destruct (product_ok sr d W F H) as (Fp & _ & P). rewrite d_to_u32_R; [reflexivity | exact Fp | ]. fold (delay_product sr d). lra.
Qed.
