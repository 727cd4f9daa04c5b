(** The clock of a plugin. *)
From Verif Require Import MidiSpec Float32Facts Float64Facts TimeProofs TimeProofs2 TimeProps MidiProofs MidiProofs2.
From Coq Require Import Lia Reals Lra.
From Flocq Require Import Core.
Open Scope R_scope.

Lemma dadd_R x y k : is_finite x = true -> is_finite y = true -> 0 <= R64 x + R64 y <= bpow radix2 k -> (-1000 <= k <= 1000)%Z ->
  R64 (dadd x y) = round radix2 fexp64 (round_mode mode_NE) (R64 x + R64 y) /\ is_finite (dadd x y) = true.
Proof.
  intros Fx Fy H Hk. unfold dadd. pose proof (Bplus_correct 53 1024 _ _ mode_NE x y Fx Fy) as C.
  destruct (round64_lt _ k H Hk) as [L U].
  rewrite Rlt_bool_true in C. { destruct C as (A & B & _). auto. }
  rewrite Rabs_pos_eq by exact L. eapply Rle_lt_trans; [exact U | ]. apply bpow_lt. lia.
Qed.
Lemma dsub_R x y k : is_finite x = true -> is_finite y = true -> 0 <= R64 x - R64 y <= bpow radix2 k -> (-1000 <= k <= 1000)%Z ->
  R64 (dsub x y) = round radix2 fexp64 (round_mode mode_NE) (R64 x - R64 y) /\ is_finite (dsub x y) = true.
Proof.
  intros Fx Fy H Hk. unfold dsub. pose proof (Bminus_correct 53 1024 _ _ mode_NE x y Fx Fy) as C.
  destruct (round64_lt _ k H Hk) as [L U].
  rewrite Rlt_bool_true in C. { destruct C as (A & B & _). auto. }
  rewrite Rabs_pos_eq by exact L. eapply Rle_lt_trans; [exact U | ]. apply bpow_lt. lia.
Qed.
Lemma dltb_R x y : is_finite x = true -> is_finite y = true -> dltb x y = Rlt_bool (R64 x) (R64 y).
Proof. intros. apply Bltb_correct; assumption. Qed.
Lemma dleb_R x y : is_finite x = true -> is_finite y = true -> dleb x y = Rle_bool (R64 x) (R64 y).
Proof. intros. apply Bleb_correct; assumption. Qed.
(** Numbers from 1/2 on are multiples of 2^-53. *)
Lemma half_grid (x : f64) : / 2 <= R64 x -> exists m, R64 x = IZR m * bpow radix2 (-53).
Proof.
  intros Hx. pose proof (generic_format_B2R 53 1024 x) as G. unfold generic_format, F2R in G. cbn [Fnum Fexp] in G.
  set (e := cexp radix2 _ (R64 x)) in G.
  assert (He : (-53 <= e)%Z).
  { unfold e, cexp. assert (M : (0 <= mag radix2 (R64 x))%Z).
    { apply mag_ge_bpow. rewrite Rabs_pos_eq by lra. change (bpow radix2 (0 - 1)) with (/ 2). exact Hx. }
    change (SpecFloat.fexp 53 1024 (mag radix2 (R64 x))) with (Z.max (mag radix2 (R64 x) - 53) (-1074)). lia. }
  exists (Ztrunc (scaled_mantissa radix2 (SpecFloat.fexp 53 1024) (R64 x)) * 2 ^ (e + 53))%Z.
  rewrite mult_IZR. change 2%Z with (radix_val radix2). rewrite IZR_Zpower by lia. rewrite Rmult_assoc, <- bpow_plus.
  replace (e + 53 + -53)%Z with e by lia. exact G.
Qed.

Lemma d_to_u32_range x z : d_to_u32 x = Ok z -> (0 <= z < 4294967296)%Z.
Proof.
  unfold d_to_u32. destruct (is_finite x); [| discriminate]. cbv zeta. destruct (Z.leb_spec 0 (Btrunc x)) as [H1 | H1]; cbn [andb]; [| discriminate].
  destruct (Z.ltb_spec (Btrunc x) 4294967296) as [H2 | H2]; [| discriminate]. intros H. assert (Q : Btrunc x = z) by congruence. lia.
Qed.
Section Clock.
Variable sr tempo : f64.
Hypothesis Hsr : rate_within 1 1000000000 sr.
Hypothesis Ft : is_finite tempo = true.
Hypothesis Pt : 0 < R64 tempo.
Notation every := (tick_every (R64 sr) (R64 tempo)).
Hypothesis He : 1 <= every <= 1000000000.

Lemma u53 : bpow radix2 (-53) = / 9007199254740992. Proof. reflexivity. Qed.
Lemma u24 : bpow radix2 (-24) = / 16777216. Proof. reflexivity. Qed.
Lemma small x : / 4 <= x -> bpow radix2 (-100) <= x.
Proof. intros. pose proof bp100. lra. Qed.
(** One more rounding. *)
Lemma near_step k x y y' : 0 <= k <= / 10000 -> 0 <= x -> near k x y -> near (bpow radix2 (-53)) y y' -> near (k + / 9000000000000000) x y'.
Proof.
  intros Hk Hx N1 N2. rewrite u53 in N2. pose proof (near_trans k (/ 9007199254740992) x y y' ltac:(lra) ltac:(lra) Hx N1 N2) as H.
  eapply near_weaken; [| exact Hx | exact H]. lra.
Qed.
Lemma spt_near : exists s, samples_per_tick sr tempo = s /\ is_finite s = true /\ near (/ 8388000) every (R32 s) /\ / 2 <= R32 s <= 2000000000.
Proof.
  destruct Hsr as [Fs Bs]. unfold samples_per_tick.
  destruct (d_of_int_exact 60) as [E60 F60]; [lia |]. destruct (d_of_int_exact 24) as [E24 F24]; [lia |].
  set (beat := 60 * R64 sr / R64 tempo).
  assert (Eb : every = beat / 24) by (unfold tick_every, beat; field; lra).
  assert (Bb : 24 <= beat <= 24000000000) by (rewrite Eb in He; lra).
  assert (P1 : 0 <= R64 (d_of_int 60) * R64 sr <= bpow radix2 40) by (rewrite E60; replace (bpow radix2 40) with 1099511627776 by reflexivity; lra).
  destruct (dmul_R _ sr 40 F60 Fs P1 ltac:(lia)) as [E1 F1]. rewrite E60 in E1.
  set (a := dmul (d_of_int 60) sr) in *.
  assert (N1 : near (bpow radix2 (-53)) (60 * R64 sr) (R64 a)) by (rewrite E1; apply round64_near, small; lra).
  assert (N1' : near (bpow radix2 (-53)) beat (R64 a / R64 tempo)).
  { unfold beat, Rdiv. apply near_mult; [apply Rlt_le, Rinv_0_lt_compat, Pt | exact N1]. }
  assert (B1 : 23 <= R64 a / R64 tempo <= 25000000000) by (unfold near in N1'; rewrite u53 in N1'; lra).
  destruct (ddiv_R a tempo 40 F1 ltac:(lra)) as [E2 F2]; [replace (bpow radix2 40) with 1099511627776 by reflexivity; lra | lia |].
  set (b := ddiv a tempo) in *.
  assert (N2 : near (2 * / 9000000000000000) beat (R64 b)).
  { replace (2 * / 9000000000000000) with (/ 9000000000000000 + / 9000000000000000) by lra.
    apply near_step with (R64 a / R64 tempo); [lra | lra | eapply near_weaken; [| | exact N1']; [rewrite u53; lra | lra] |].
    rewrite E2. apply round64_near, small. lra. }
  assert (B2 : 22 <= R64 b <= 26000000000) by (unfold near in N2; lra).
  destruct (narrow_R b 40 F2) as [E3 F3]; [replace (bpow radix2 40) with 1099511627776 by reflexivity; lra | lia |].
  set (bt := narrow b) in *.
  assert (N3 : near (bpow radix2 (-24)) (R64 b) (R32 bt)) by (rewrite E3; apply round32_near, small; lra).
  destruct (widen_exact bt F3) as [E4 F4].
  assert (N4 : near (/ 16777000) beat (R32 bt)).
  { eapply near_weaken; [| | eapply near_trans; [| | | exact N2 | exact N3]]; rewrite ?u24; lra. }
  assert (B4 : 20 <= R32 bt <= 30000000000) by (unfold near in N4; lra).
  destruct (ddiv_R (widen bt) (d_of_int 24) 40 F4) as [E5 F5]; [lra | rewrite E24, E4; replace (bpow radix2 40) with 1099511627776 by reflexivity; lra | lia |].
  rewrite E24, E4 in E5. set (q := ddiv (widen bt) (d_of_int 24)) in *.
  assert (N5 : near (/ 16777000 + / 9000000000000000) every (R64 q)).
  { apply near_step with (R32 bt / 24); [lra | lra | rewrite Eb; unfold Rdiv; apply near_mult; [lra | exact N4] |].
    rewrite E5. apply round64_near, small. lra. }
  assert (B5 : / 4 * 3 <= R64 q <= 1500000000) by (unfold near in N5; lra).
  destruct (narrow_R q 40 F5) as [E6 F6]; [replace (bpow radix2 40) with 1099511627776 by reflexivity; lra | lia |].
  exists (narrow q). split; [reflexivity |]. split; [exact F6 |].
  assert (N6 : near (bpow radix2 (-24)) (R64 q) (R32 (narrow q))) by (rewrite E6; apply round32_near, small; lra).
  assert (N7 : near (/ 8388000) every (R32 (narrow q))).
  { eapply near_weaken; [| | eapply near_trans; [| | | exact N5 | exact N6]]; rewrite ?u24; lra. }
  split; [exact N7 |]. unfold near in N7. lra.
Qed.

Notation spt := (samples_per_tick sr tempo).
Notation step := (widen spt).
Definition tick (k : nat) : f64 := Nat.iter k (fun x => dadd x step) dzero.
Lemma tick_S k : tick (S k) = dadd (tick k) step. Proof. reflexivity. Qed.
Lemma step_near : is_finite step = true /\ near (/ 8388000) every (R64 step) /\ / 2 <= R64 step <= 2000000000.
Proof. destruct spt_near as (s & -> & F & N & B). destruct (widen_exact s F) as [-> F']. auto. Qed.

Lemma tick_near k : (Z.of_nat k <= 2 ^ 26)%Z -> is_finite (tick k) = true /\
  near (INR k * (2 * / 9007199254740992)) (INR k * R64 step) (R64 (tick k)).
Proof.
  destruct step_near as (Fs & _ & Bs).
  induction k as [| k IH]; intros Hk.
  - split; [reflexivity |]. change (R64 (tick 0)) with 0. cbn [INR]. unfold near. lra.
  - destruct (IH ltac:(lia)) as [Fk Nk].
    assert (K : 0 <= INR k <= 67108864) by (rewrite INR_IZR_INZ; split; apply IZR_le; lia).
    set (s := R64 step) in *. set (x := INR k) in *. set (u := / 9007199254740992) in *.
    assert (U : 0 < u < / 9000000000000000) by (unfold u; lra).
    assert (XU : 0 <= x * (2 * u) <= / 1000000) by (unfold u in *; lra).
    assert (XS : 0 <= x * s <= 134217728000000000) by (split; [apply Rmult_le_pos; lra |]; apply Rle_trans with (67108864 * 2000000000); [apply Rmult_le_compat; lra | lra]).
    unfold near in Nk.
    assert (Bk : 0 <= R64 (tick k) <= 200000000000000000).
    { split; [apply Rle_trans with (x * s * (1 - x * (2 * u))); [apply Rmult_le_pos; lra | lra] |].
      apply Rle_trans with (x * s * (1 + x * (2 * u))); [lra |]. apply Rle_trans with (134217728000000000 * (1 + / 1000000)); [apply Rmult_le_compat; lra | lra]. }
    destruct (dadd_R (tick k) step 60 Fk Fs) as [E F]; [fold s; replace (bpow radix2 60) with 1152921504606846976 by reflexivity; lra | lia |].
    rewrite tick_S. split; [exact F |]. fold s in E. rewrite E.
    assert (N : near (bpow radix2 (-53)) (R64 (tick k) + s) (round radix2 fexp64 (round_mode mode_NE) (R64 (tick k) + s))) by (apply round64_near, small; lra).
    rewrite u53 in N. fold u in N. rewrite S_INR. fold x.
    assert (A : near (x * (2 * u)) ((x + 1) * s) (R64 (tick k) + s)).
    { unfold near. assert (0 <= s * (x * (2 * u))) by (apply Rmult_le_pos; lra).
      replace ((x + 1) * s * (1 - x * (2 * u))) with (x * s * (1 - x * (2 * u)) + s - s * (x * (2 * u))) by ring.
      replace ((x + 1) * s * (1 + x * (2 * u))) with (x * s * (1 + x * (2 * u)) + s + s * (x * (2 * u))) by ring. lra. }
    eapply near_weaken; [| | eapply near_trans; [| | | exact A | exact N]]; try lra; try (apply Rmult_le_pos; lra).
    assert (x * (2 * u) * u <= / 1000000 * u) by (apply Rmult_le_compat_r; lra).
    replace ((x + 1) * (2 * u)) with (x * (2 * u) + 2 * u) by ring. lra.
Qed.
Lemma tick_accuracy k : (Z.of_nat k <= 2 ^ 26)%Z -> near (/ 7000000) (INR k * every) (R64 (tick k)) /\ 0 <= R64 (tick k) <= 200000000000000000.
Proof.
  intros Hk. destruct (tick_near k Hk) as [_ N]. destruct step_near as (_ & Ns & Bs).
  assert (K : 0 <= INR k <= 67108864) by (rewrite INR_IZR_INZ; split; apply IZR_le; lia).
  assert (N1 : near (/ 8388000) (INR k * every) (INR k * R64 step)).
  { rewrite !(Rmult_comm (INR k)). apply near_mult; [lra | exact Ns]. }
  assert (P : 0 <= INR k * every) by (apply Rmult_le_pos; lra).
  assert (N2 : near (/ 7000000) (INR k * every) (R64 (tick k))).
  { eapply near_weaken; [| exact P | eapply near_trans; [| | exact P | exact N1 | exact N]]; lra. }
  split; [exact N2 |].
  assert (Q : INR k * every <= 67108864 * 1000000000) by (apply Rmult_le_compat; lra).
  unfold near in N2. lra.
Qed.
Lemma tick_step k : (Z.of_nat k < 2 ^ 26)%Z -> R64 (tick k) <= 1125899906842624 -> R64 (tick k) + / 4 <= R64 (tick (S k)).
Proof.
  intros Hk Hb. destruct (tick_near k ltac:(lia)) as [Fk _]. destruct (tick_accuracy k ltac:(lia)) as [_ Bk]. destruct step_near as (Fs & _ & Bs).
  destruct (dadd_R (tick k) step 60 Fk Fs) as [E F]; [replace (bpow radix2 60) with 1152921504606846976 by reflexivity; lra | lia |].
  rewrite tick_S, E.
  assert (N : near (bpow radix2 (-53)) (R64 (tick k) + R64 step) (round radix2 fexp64 (round_mode mode_NE) (R64 (tick k) + R64 step))) by (apply round64_near, small; lra).
  unfold near in N. rewrite u53 in N. lra.
Qed.

(** ** The delay of a tick in a block that begins at frame [c] *)
Definition tick_delay (c : f64) (x : f64) : f64 := ddiv (dmul (d_of_int 1000) (dsub x c)) sr.
Lemma delay_ok (cd : f64) c n k : (Z.of_nat k <= 2 ^ 26)%Z -> is_finite cd = true -> R64 cd = IZR c -> (0 <= c <= 2 ^ 50)%Z -> (0 <= n <= 2 ^ 23)%Z ->
  IZR c <= R64 (tick k) < IZR (c + n) ->
  dleb dzero (tick_delay cd (tick k)) = true /\
  exists d, (0 <= d <= n)%Z /\ (forall start, message_time sr start (tick_delay cd (tick k)) = Ok (u32 (start + d))) /\
    R64 (tick k) - 1.005 <= IZR (c + d) <= R64 (tick k) + 0.005.
Proof.
  intros Hk Fc Ec Hc Hn Hx. destruct (tick_near k Hk) as [Fk _]. destruct (tick_accuracy k Hk) as [_ Bk].
  assert (Nn : 0 <= IZR n <= 8388608) by (split; apply IZR_le; lia). rewrite plus_IZR in Hx.
  assert (Cc : 0 <= IZR c) by (apply IZR_le; lia).
  set (x := R64 (tick k) - IZR c). assert (X : 0 <= x <= 8388608) by (unfold x; lra).
  assert (G : x = 0 \/ bpow radix2 (-60) <= x).
  { destruct (Rle_lt_dec (/ 2) (R64 (tick k))) as [Hh | Hh].
    - destruct (half_grid (tick k) Hh) as [m Em]. unfold x. rewrite Em.
      assert (Xz : IZR m * bpow radix2 (-53) - IZR c = IZR (m - c * 2 ^ 53) * bpow radix2 (-53)).
      { rewrite minus_IZR, mult_IZR. rewrite u53. change (IZR (2 ^ 53)) with 9007199254740992. lra. }
      unfold x in X. rewrite Em, Xz in X. rewrite Xz. destruct (Z_lt_le_dec 0 (m - c * 2 ^ 53)) as [Hp | Hp].
      + right. assert (1 <= IZR (m - c * 2 ^ 53)) by (apply IZR_le; lia).
        apply Rle_trans with (1 * bpow radix2 (-53)); [rewrite Rmult_1_l; apply bpow_le; lia |]. apply Rmult_le_compat_r; [apply bpow_ge_0 | assumption].
      + left. apply Rle_antisym; [| lra]. assert (IZR (m - c * 2 ^ 53) <= 0) by (apply IZR_le; lia).
        pose proof (bpow_gt_0 radix2 (-53)). nra.
    - (* the first tick, in the first block *)
      destruct k as [| k].
      + left. unfold x. change (R64 (tick 0)) with 0 in *. lra.
      + exfalso. destruct (tick_accuracy (S k) Hk) as [Na _]. unfold near in Na.
        assert (1 <= INR (S k)) by (rewrite S_INR; pose proof (pos_INR k); lra).
        assert (1 * 1 <= INR (S k) * every) by (apply Rmult_le_compat; lra). lra. }
  assert (L60 : bpow radix2 (-100) <= bpow radix2 (-60)) by (apply bpow_le; lia).
  (* x *)
  destruct (dsub_R (tick k) cd 40 Fk Fc) as [E1 F1]; [rewrite Ec; fold x; replace (bpow radix2 40) with 1099511627776 by reflexivity; lra | lia |].
  rewrite Ec in E1. fold x in E1. set (w := dsub (tick k) cd) in *.
  assert (N1 : near (bpow radix2 (-53)) x (R64 w)).
  { rewrite E1. destruct G as [-> | G]; [rewrite round64_0; apply near_refl; [apply bpow_ge_0 | lra] | apply round64_near; lra]. }
  assert (W : 0 <= R64 w <= 9000000) by (unfold near in N1; rewrite u53 in N1; lra).
  assert (Gw : R64 w = 0 \/ bpow radix2 (-61) <= R64 w).
  { destruct G as [G | G]; [left; unfold near in N1; rewrite G in N1; lra | right].
    unfold near in N1. rewrite u53 in N1. change (bpow radix2 (-61)) with (bpow radix2 (-60 + -1)). rewrite (bpow_plus radix2 (-60) (-1)).
    change (bpow radix2 (-1)) with (/ 2). lra. }
  assert (L61 : bpow radix2 (-100) <= bpow radix2 (-61)) by (apply bpow_le; lia).
  destruct (d_of_int_exact 1000) as [E1000 F1000]; [lia |].
  destruct (dmul_R (d_of_int 1000) w 40 F1000 F1) as [E2 F2]; [rewrite E1000; replace (bpow radix2 40) with 1099511627776 by reflexivity; lra | lia |].
  rewrite E1000 in E2. set (y := dmul (d_of_int 1000) w) in *.
  assert (N2 : near (/ 9007199254740992 + / 9000000000000000) (1000 * x) (R64 y)).
  { apply near_step with (1000 * R64 w); [lra | lra | rewrite <- u53, !(Rmult_comm 1000); apply near_mult; [lra | exact N1] |].
    rewrite E2. destruct Gw as [-> | Gw]; [rewrite Rmult_0_r, round64_0; apply near_refl; [apply bpow_ge_0 | lra] | apply round64_near; lra]. }
  assert (Y : 0 <= R64 y <= 9000000000) by (unfold near in N2; lra).
  destruct Hsr as [Fs Bs].
  assert (Is : / 1000000000 <= / R64 sr <= 1) by (split; [apply Rinv_le_contravar; lra | rewrite <- Rinv_1; apply Rinv_le_contravar; lra]).
  assert (Q : 0 <= R64 y / R64 sr <= 9000000000).
  { unfold Rdiv. split; [apply Rmult_le_pos; lra |]. apply Rle_trans with (R64 y * 1); [apply Rmult_le_compat_l; lra | lra]. }
  destruct (ddiv_R y sr 40 F2 ltac:(lra)) as [E3 F3]; [replace (bpow radix2 40) with 1099511627776 by reflexivity; lra | lia |].
  fold (tick_delay cd (tick k)). set (dl := tick_delay cd (tick k)) in *. change (ddiv y sr) with dl in E3, F3.
  assert (N3 : near (/ 9007199254740992 + / 9000000000000000 + / 9000000000000000) (1000 * x / R64 sr) (R64 dl)).
  { apply near_step with (R64 y / R64 sr); [lra | unfold Rdiv; apply Rmult_le_pos; lra | unfold Rdiv; apply near_mult; [lra | exact N2] |].
    rewrite E3. destruct G as [G | G].
    - assert (Y0 : R64 y = 0) by (unfold near in N2; rewrite G in N2; lra). rewrite Y0. unfold Rdiv. rewrite Rmult_0_l, round64_0. apply near_refl; [apply bpow_ge_0 | lra].
    - apply round64_near. unfold Rdiv. apply Rle_trans with (bpow radix2 (-60) * / 1000000000).
      + apply Rle_trans with (bpow radix2 (-60) * bpow radix2 (-40)); [rewrite <- bpow_plus; right; reflexivity |].
        apply Rmult_le_compat_l; [apply bpow_ge_0 |]. replace (bpow radix2 (-40)) with (/ 1099511627776) by reflexivity. lra.
      + apply Rmult_le_compat; [apply bpow_ge_0 | lra | | lra]. unfold near in N2. lra. }
  assert (B3 : 0 <= 1000 * x / R64 sr <= 8388608000).
  { unfold Rdiv. split; [apply Rmult_le_pos; lra |]. apply Rle_trans with (1000 * x * 1); [apply Rmult_le_compat_l; lra | lra]. }
  assert (D : 0 <= R64 dl <= 9000000000) by (unfold near in N3; lra).
  split. { rewrite dleb_R by (reflexivity || exact F3). change (R64 dzero) with 0. apply Rle_bool_true. lra. }
  assert (Sx : near (/ 9007199254740992 + / 9000000000000000 + / 9000000000000000) x (samples_in (R64 dl) (R64 sr))).
  { unfold samples_in. replace x with (1000 * x / R64 sr * (R64 sr / 1000)) by (field; lra).
    replace (R64 dl * R64 sr / 1000) with (R64 dl * (R64 sr / 1000)) by field. apply near_mult; [lra | exact N3]. }
  destruct (message_delays sr (conj Fs Bs)) as [H _]. unfold near in Sx.
  assert (Hd : forall start, exists d, message_time sr start dl = Ok (u32 (start + d)) /\ (0 <= d < 4294967296)%Z /\ x - 1.005 <= IZR d <= x + 0.005).
  { intros start. destruct (H dl start F3) as (d & Hd & Hd0 & Hd1); [lra | lra |]. cbv zeta in Hd1. exists d. split; [exact Hd |]. split; [exact Hd0 |]. lra. }
  destruct (Hd 0%Z) as (d & H0 & R0 & A0). exists d.
  assert (Hn' : (d <= n)%Z). { apply Z.lt_succ_r. apply lt_IZR. rewrite succ_IZR. unfold x in *. lra. }
  split; [lia |]. split.
  - intros start. unfold message_time in *. destruct (dleb dzero dl); [| discriminate H0].
    destruct (d_to_u32 (dmul (dmax dzero dl) (ddiv sr (d_of_int 1000)))) as [z | |] eqn:Ez; cbn [obind] in *; try discriminate H0.
    pose proof (d_to_u32_range _ _ Ez) as Hz.
    injection H0 as H0. unfold u32 in H0. cbn [Z.add] in H0. rewrite !Z.mod_small in H0 by lia. subst z. reflexivity.
  - rewrite plus_IZR. unfold x in A0. lra.
Qed.

(** ** One block *)
Lemma loop_ok (cd stop : f64) c n total : is_finite cd = true -> R64 cd = IZR c -> is_finite stop = true -> R64 stop = IZR (c + n) ->
  (0 <= c <= 2 ^ 50)%Z -> (0 <= n <= 2 ^ 23)%Z -> (c + n <= total)%Z -> (total <= 2 ^ 50)%Z -> IZR total <= 33554432 * every ->
  forall fuel k, (Z.of_nat k <= 2 ^ 26)%Z -> IZR c <= R64 (tick k) -> (IZR (c + n) - R64 (tick k)) * 4 < INR fuel ->
  exists l, tick_loop sr spt cd stop fuel (tick k) = Some (tick (k + List.length l), l) /\ (Z.of_nat (k + List.length l) <= 2 ^ 26)%Z /\
    (forall j cl, nth_error l j = Some cl -> clock_at sr every c n (k + j) cl) /\ IZR (c + n) <= R64 (tick (k + List.length l)).
Proof.
  intros Fc Ec Fs Es Hc Hn Ht Ht2 Ht3. induction fuel as [| fuel IH]; intros k Hk Hlo Hf.
  - cbn [INR] in Hf. cbn [tick_loop]. destruct (tick_near k Hk) as [Fk _]. rewrite dltb_R by assumption. rewrite Es. rewrite Rlt_bool_false by lra.
    exists []. cbn [List.length]. rewrite Nat.add_0_r. split; [reflexivity |]. split; [exact Hk |]. split; [intros [| j] cl H; discriminate H | lra].
  - cbn [tick_loop]. destruct (tick_near k Hk) as [Fk _]. destruct (tick_accuracy k Hk) as [Na Ba]. rewrite dltb_R by assumption. rewrite Es.
    destruct (Rlt_bool_spec (R64 (tick k)) (IZR (c + n))) as [Hlt | Hge].
    + assert (Tt : IZR (c + n) <= IZR total) by (apply IZR_le; exact Ht).
      assert (T50 : IZR total <= 1125899906842624) by (apply IZR_le; exact Ht2).
      assert (Hk2 : (Z.of_nat k < 2 ^ 26)%Z).
      { apply lt_IZR. rewrite <- INR_IZR_INZ. change (IZR (2 ^ 26)) with 67108864. unfold near in Na.
        apply Rmult_lt_reg_r with every; [lra |]. assert (INR k * every * (1 - / 7000000) < 33554432 * every) by lra. lra. }
      pose proof (tick_step k Hk2 ltac:(lra)) as St.
      rewrite <- tick_S. destruct (IH (S k) ltac:(lia) ltac:(lra)) as (l & El & Hl & Hcl & Hend).
      { rewrite S_INR in Hf. lra. }
      rewrite El. destruct (delay_ok cd c n k Hk Fc Ec Hc Hn (conj Hlo Hlt)) as (Hd & d & Hd0 & Hd1 & Hd2).
      fold (tick_delay cd (tick k)). rewrite Hd. cbn [app].
      exists (realtime (tick_delay cd (tick k)) 248 :: l). cbn [List.length]. rewrite <- Nat.add_succ_comm.
      split; [reflexivity |]. split; [exact Hl |]. split; [| exact Hend].
      intros [| j] cl H.
      * cbn [nth_error] in H. assert (Q : cl = realtime (tick_delay cd (tick k)) 248) by congruence. clear H. subst cl. rewrite Nat.add_0_r.
        split; [reflexivity |]. split; [reflexivity |]. exists d. split; [exact Hd0 |]. split; [exact Hd1 |].
        unfold near in Na. apply Rabs_le. unfold Rdiv. lra.
      * cbn [nth_error] in H. rewrite <- Nat.add_succ_comm. apply Hcl. exact H.
    + exists []. cbn [List.length]. rewrite Nat.add_0_r. split; [reflexivity |]. split; [exact Hk |]. split; [intros [| j] cl H; discriminate H | lra].
Qed.

Definition clocks (l : list call) : list call := filter (status_is 248) l.
Lemma transport_no_clock was p : clocks (transport_events was p) = [].
Proof. unfold clocks, transport_events. destruct (playing p), was, (frame p =? 0)%Z; vm_compute; reflexivity. Qed.
Lemma all_clocks l : (forall j cl, nth_error l j = Some cl -> c_recv cl = receiver "__hv_midirealtimein" /\ c_vals cl = [of_int 248; of_int 0]) -> clocks l = l.
Proof.
  induction l as [| a l IH]; intros H; [reflexivity |]. cbn [clocks filter]. destruct (H O a eq_refl) as [H1 H2].
  unfold status_is, for_receiver. rewrite H1, H2, Z.eqb_refl. change (feqb (of_int 248) (of_int 248)) with true. cbn [andb]. f_equal. apply IH.
  intros j cl Hj. apply (H (S j) cl Hj).
Qed.

Lemma blocks_ok fuel (ps : list (position * Z)) :
  Forall (fun e => playing (fst e) = true /\ bbt_valid (fst e) = true /\ bpm (fst e) = tempo /\ (1 <= snd e <= 2 ^ 23)%Z) ps ->
  (2 ^ 26 <= Z.of_nat fuel)%Z ->
  forall c k was cd, is_finite cd = true -> R64 cd = IZR c -> (0 <= c)%Z -> (Z.of_nat k <= 2 ^ 26)%Z -> IZR c <= R64 (tick k) ->
  (c + sumZ (map snd ps) <= 2 ^ 50)%Z -> IZR (c + sumZ (map snd ps)) <= 33554432 * every ->
  exists t r, host_blocks fuel sr (mkTransport was (tick k) cd) ps = Some (t, r) /\
    clock_right sr every c k (map snd ps) (map clocks r).
Proof.
  intros Hps Hfuel. induction Hps as [| [p n] ps Hp Hps IH]; intros c k was cd Fc Ec Hc Hk Hlo Hs Hs2.
  - exists (mkTransport was (tick k) cd), []. split; [reflexivity | exact Logic.I].
  - cbn [fst snd] in Hp. destruct Hp as (Pp & Pv & Pb & Hn). cbn [map snd] in Hs, Hs2. change (sumZ (n :: map snd ps)) with (n + sumZ (map snd ps))%Z in Hs, Hs2.
    assert (Sp : (0 <= sumZ (map snd ps))%Z).
    { clear -Hps. induction Hps as [| e l [_ [_ [_ He]]] Hl IH]; cbn [map sumZ fold_right]; [lia |]. fold (sumZ (map snd l)). lia. }
    cbn [host_blocks]. unfold host_transport. cbn [was_playing next_tick cycle_start]. rewrite Pp, Pv, Pb. cbn [andb].
    destruct (d_of_int_exact n) as [En Fn]; [lia |].
    assert (Cc : 0 <= IZR c <= 1125899906842624) by (split; apply IZR_le; lia).
    assert (Nn : 1 <= IZR n <= 8388608) by (split; apply IZR_le; lia).
    destruct (dadd_R cd (d_of_int n) 60 Fc Fn) as [E1 F1]; [rewrite Ec, En; replace (bpow radix2 60) with 1152921504606846976 by reflexivity; lra | lia |].
    rewrite Ec, En, <- plus_IZR, round64_id in E1 by (apply fmt64_int; lia).
    destruct (tick_near k Hk) as [Fk _]. destruct (tick_accuracy k Hk) as [_ Bk].
    rewrite !dleb_R by (reflexivity || assumption). rewrite dltb_R by assumption. rewrite E1, Ec. change (R64 dzero) with 0.
    rewrite (Rle_bool_true 0 (R64 (tick k))) by lra. rewrite (Rle_bool_true 0 (IZR c)) by lra. rewrite Rlt_bool_true by (rewrite plus_IZR; lra). cbn [andb].
    destruct (loop_ok cd (dadd cd (d_of_int n)) c n (c + (n + sumZ (map snd ps)))%Z Fc Ec F1 E1 ltac:(lia) ltac:(lia) ltac:(lia) ltac:(lia) Hs2 fuel k Hk Hlo)
      as (l & El & Hl & Hcl & Hend).
    { rewrite INR_IZR_INZ. apply IZR_le in Hfuel. change (IZR (2 ^ 26)) with 67108864 in Hfuel. rewrite plus_IZR. lra. }
    rewrite El.
    destruct (IH (c + n)%Z (k + List.length l)%nat true (dadd cd (d_of_int n)) F1 E1 ltac:(lia) Hl Hend) as (t & r & Er & Hr).
    { rewrite <- Z.add_assoc. exact Hs. }
    { rewrite <- Z.add_assoc. exact Hs2. }
    rewrite Er. exists t, ((transport_events was p ++ l) :: r). split; [reflexivity |].
    cbn [map snd clock_right]. unfold clocks at 1 2 3. rewrite !filter_app. fold (clocks (transport_events was p)). rewrite transport_no_clock. cbn [app].
    fold (clocks l). rewrite (all_clocks l). 2: { intros j cl Hj. destruct (Hcl j cl Hj) as (H1 & H2 & _). auto. }
    split; [exact Hcl |]. split; [| exact Hr].
    destruct (tick_accuracy (k + List.length l) Hl) as [Na _]. unfold near in Na. lra.
Qed.
End Clock.
