(** Properties of time conversions. *)
From Verif Require Import TimeModel TimeSpec Float32Facts Float64Facts TimeProofs TimeProofs2.
From Flocq Require Import Core.
From Coq Require Import Reals Lra.
Open Scope R_scope.

(** ** C107 *)
(** With a whole sample rate the number of samples in a time is rounded down, exactly; negative times and
    NaN give 0.  [delay_inlet 1] is the right inlet of [delay] and [pipe]. *)
Theorem milliseconds_round_down : forall sr r, whole_rate sr r -> (1 <= r < 2 ^ 27)%Z ->
  (forall ms n, is_finite ms = true -> 0 <= R32 ms -> (0 <= n < 4294967296)%Z -> rounded_down (samples_in (R32 ms) (IZR r)) n ->
     ms_to_samples sr ms = Ok n /\ delay_inlet sr 1 ms = Ok n) /\
  (forall ms, (is_finite ms = true /\ R32 ms < 0) \/ ms = B754_infinity true \/ ms = B754_nan -> ms_to_samples sr ms = Ok 0%Z).
Proof.
  intros sr r W Hr. split.
  - intros ms n F P Hn [L U]. enough (E : ms_to_samples sr ms = Ok n) by (split; exact E).
    assert (Em : Rmax 0 (R32 ms) = R32 ms) by (now apply Rmax_right).
    rewrite (ms_to_samples_exact sr r ms W Hr F); rewrite Em.
    + f_equal. apply Zfloor_imp. rewrite plus_IZR. lra.
    + assert (IZR n + 1 <= 4294967296); [ | lra]. rewrite <- plus_IZR. apply IZR_le. lia.
  - assert (Z0 : forall ms, fmax fzero ms = fzero -> ms_to_samples sr ms = Ok 0%Z).
    { intros ms E. pose proof (ms_to_samples_exact sr r fzero W Hr eq_refl) as Q. unfold ms_to_samples in *. rewrite E.
      change (fmax fzero fzero) with fzero in Q. change (R32 fzero) with 0 in Q. rewrite Rmax_left in Q by lra. unfold samples_in in Q.
      replace (0 * IZR r / 1000) with 0 in Q by lra. rewrite Q by lra. now rewrite (Zfloor_IZR 0). }
    intros ms [[F N] | [-> | ->]]; apply Z0; try reflexivity. unfold fmax. cbn [is_nan fzero].
    replace (is_nan ms) with false by (destruct ms; try discriminate; reflexivity). unfold fltb. rewrite Bltb_correct by (reflexivity || exact F).
    change (R32 fzero) with 0. rewrite Rlt_bool_false by lra. reflexivity.
Qed.
(** 10 ms at 44100 Hz; 1.5 ms at 44100 Hz (66.15 samples). *)
Example milliseconds_44100 : ms_to_samples (d_of_int 44100) (of_int 10) = Ok 441%Z /\ ms_to_samples (d_of_int 44100) (fdyadic 3 (-1)) = Ok 66%Z.
Proof. split; vm_compute; reflexivity. Qed.
Example rate_44100 : whole_rate (d_of_int 44100) 44100 /\ rounded_down (samples_in (R32 (fdyadic 3 (-1))) 44100) 66.
Proof.
  split; [split; apply d_of_int_exact; lia | ]. unfold rounded_down, samples_in. destruct (dyadic_exact 3 (-1)) as [-> _]; [lia | lia | ].
  replace (bpow radix2 (-1)) with (/ 2) by reflexivity. lra.
Qed.

(** ** C108 *)
(** Converting a number of samples to milliseconds and back loses at most one sample. *)
Theorem samples_round_trip : forall sr r n, whole_rate sr r -> (1 <= r < 2 ^ 27)%Z -> (0 <= n <= 2 ^ 23)%Z ->
  exists n', ms_to_samples sr (samples_to_ms sr n) = Ok n' /\ (n' = n \/ n' = n - 1)%Z.
Proof. intros sr r n W Hr Hn. destruct (round_trip sr r n W Hr Hn) as [E | E]; eexists; (split; [exact E | ]); auto. Qed.
(** ** C109 *)
(** It does lose one: 5 samples at 48 kHz and at 44.1 kHz. *)
Theorem samples_round_trip_refuted :
  ms_to_samples (d_of_int 48000) (samples_to_ms (d_of_int 48000) 5) = Ok 4%Z /\
  ms_to_samples (d_of_int 44100) (samples_to_ms (d_of_int 44100) 5) = Ok 4%Z.
Proof. split; vm_compute; reflexivity. Qed.

(** ** C110 *)
(** A message sent with a delay of [d] ms is stamped with the start of the next block plus [n] samples,
    where [n] is the exact number rounded down up to a relative error of 1/(4*10^15); longer delays do
    not give earlier times; whole milliseconds at a multiple of 1 kHz are exact; negative delays and NaN
    are stopped by an assertion. *)
Theorem message_delays : forall sr, rate_within 1 1000000000 sr ->
  (forall d start, is_finite d = true -> 0 <= R64 d <= 10000000000 -> samples_in (R64 d) (R64 sr) <= 4294967294 ->
     exists n, message_time sr start d = Ok (u32 (start + n)) /\ (0 <= n < 4294967296)%Z /\
       let x := samples_in (R64 d) (R64 sr) in x * (1 - / 4000000000000000) - 1 < IZR n <= x * (1 + / 4000000000000000)) /\
  (forall d d' start, is_finite d = true -> is_finite d' = true -> 0 <= R64 d <= R64 d' -> R64 d' <= 10000000000 ->
     samples_in (R64 d') (R64 sr) <= 4294967294 ->
     exists n n', message_time sr start d = Ok (u32 (start + n)) /\ message_time sr start d' = Ok (u32 (start + n')) /\ (0 <= n <= n' /\ n' < 4294967296)%Z) /\
  (forall k m d start, whole_rate sr (1000 * k) -> is_finite d = true -> R64 d = IZR m -> (0 <= m)%Z -> (m * k < 4294967295)%Z ->
     message_time sr start d = Ok (u32 (start + m * k))) /\
  (forall d start, (is_finite d = true /\ R64 d < 0) \/ d = B754_infinity true \/ d = B754_nan -> message_time sr start d = AssertFail).
Proof.
  intros sr W.
  assert (X : forall d start, is_finite d = true -> 0 <= R64 d <= 10000000000 -> samples_in (R64 d) (R64 sr) <= 4294967294 ->
     delay_product sr d < 4294967296 /\ message_time sr start d = Ok (u32 (start + Zfloor (delay_product sr d))) /\ (0 <= Zfloor (delay_product sr d) < 4294967296)%Z).
  { intros d start F H L. pose proof (product_near sr d W F H) as [N1 N2]. destruct (product_ok sr d W F H) as (_ & _ & P).
    pose proof (Zfloor_ub (delay_product sr d)) as U. pose proof (Zfloor_lb (delay_product sr d)) as L'.
    assert (Q : (Zfloor (delay_product sr d) < 4294967295)%Z). { apply lt_IZR. eapply Rle_lt_trans; [exact N2 | ]. lra. }
    assert (Q' : (Zfloor (delay_product sr d) + 1 <= 4294967295)%Z) by lia. apply IZR_le in Q'. rewrite plus_IZR in Q'.
    assert (Z0 : (0 <= Zfloor (delay_product sr d))%Z) by (apply Zfloor_lub; exact P).
    split; [lra | ]. split; [ | lia]. apply message_time_R; auto. lra. }
  split; [ | split; [ | split]].
  - intros d start F H L. destruct (X d start F H L) as (_ & E & B). eexists. split; [exact E | ]. split; [exact B | ]. apply (product_near sr d W F H).
  - intros d d' start F F' H H' L.
    assert (L1 : samples_in (R64 d) (R64 sr) <= 4294967294).
    { unfold samples_in in *. destruct W as [_ W]. eapply Rle_trans; [ | exact L]. apply Rmult_le_compat_r; [lra | ]. apply Rmult_le_compat_r; lra. }
    destruct (X d start F) as (_ & E & B); [lra | exact L1 | ]. destruct (X d' start F') as (_ & E' & B'); [lra | exact L | ].
    exists (Zfloor (delay_product sr d)), (Zfloor (delay_product sr d')). split; [exact E | ]. split; [exact E' | ].
    assert (Zfloor (delay_product sr d) <= Zfloor (delay_product sr d'))%Z by (apply Zfloor_le, product_mono; auto). lia.
  - intros k m d start Wk F Em Hm L. assert (Hk : (1 <= k <= 1000000)%Z).
    { destruct W as [_ W], Wk as [_ Wk]. rewrite Wk in W. destruct W as [W1 W2]. apply le_IZR in W1. apply le_IZR in W2. lia. }
    assert (Hm' : (m <= 9000000000)%Z) by nia.
    pose proof (product_exact sr k m d Wk Hk F Em (conj Hm Hm')) as E.
    rewrite message_time_R; [ | exact W | exact F | rewrite Em; split; apply IZR_le; lia | rewrite E; apply IZR_lt; lia].
    rewrite E, Zfloor_IZR. reflexivity.
  - intros d start [[F N] | [-> | ->]]; [ | reflexivity | reflexivity]. unfold message_time. rewrite dleb0 by exact F. now rewrite Rle_bool_false.
Qed.
Example message_delay_48000 : message_time (d_of_int 48000) 256 (d_of_int 10) = Ok 736%Z.
Proof. vm_compute. reflexivity. Qed.

(** ** C111 *)
(** Not every delay is rounded down exactly: 25 ms at 37.8 kHz are 945 samples. *)
Theorem message_delay_exact_refuted : exists sr d, whole_rate sr 37800 /\ is_finite d = true /\ R64 d = 25 /\
  samples_in (R64 d) (R64 sr) = 945 /\ message_time sr 0 d = Ok 944%Z.
Proof.
  exists (d_of_int 37800), (d_of_int 25). destruct (d_of_int_exact 37800) as [E F]; [lia | ]. destruct (d_of_int_exact 25) as [E' F']; [lia | ].
  split; [split; assumption | ]. split; [exact F' | ]. split; [exact E' | ]. split; [unfold samples_in; rewrite E, E'; lra | ]. vm_compute. reflexivity.
Qed.

Print Assumptions milliseconds_round_down.
Print Assumptions samples_round_trip.
Print Assumptions samples_round_trip_refuted.
Print Assumptions message_delays.
Print Assumptions message_delay_exact_refuted.
