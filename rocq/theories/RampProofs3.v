(** line: a new target. *)
From Verif Require Import PatchProofs PatchProofs2 PatchProofs3 PatchProofs4 PatchProofs7 PatchProofs8 RampSpec RampProofs RampProofs2.
From Coq Require Import Lia.
Open Scope Z_scope.

Lemma ramp_queue_drop p : drop_node 14 (ramp_queue p) = [].
Proof. destruct p; reflexivity. Qed.
Definition ramp_inv (E : env) (q : Z) (r : ramp) (w : world) : Prop :=
  (exists m1 gm lf steps c s, w = ramp_world E q r m1 gm lf steps c s /\
     (forall t, r_due r = Some t -> lf = of_int (r_left r * q) /\ - 2 ^ 24 <= r_left r * q /\ 125 * q * r_left r <= 2 ^ 24)) /\
  1 <= r_grain r /\ 125 * q * r_grain r <= 2 ^ 24 /\ ramp_ms q (r_time r).
(** The samples left when the ramp goes on. *)
Lemma left_next q left g : 1 <= q -> 0 < left -> 1 <= g -> 125 * q * left <= 2 ^ 24 -> 125 * q * g <= 2 ^ 24 ->
  fsub (of_int (left * q)) (of_int (g * q)) = of_int ((left - g) * q) /\ - 2 ^ 24 <= (left - g) * q /\ 125 * q * (left - g) <= 2 ^ 24.
Proof.
  intros Hq Hl Hg H1 H2. replace ((left - g) * q) with (left * q - g * q) by lia.
  split; [apply fsub_whole; nia | nia].
Qed.
Lemma left_test left q : 1 <= q -> Z.abs (left * q) <= 2 ^ 24 -> fleb (of_int (left * q)) fzero = (left <=? 0).
Proof. intros Hq H. change fzero with (of_int 0). rewrite of_int_fleb by lia. destruct (Z.leb_spec (left * q) 0), (Z.leb_spec left 0); nia. Qed.

Section Target.
Variables (E : env) (q : Z) (k1 k2 : f32).
Hypothesis Hr : whole_rate (e_sr E) (1000 * q).
Hypothesis Hq : 1 <= q <= 1000.
Notation fp := (flatten (line_pd k1 k2) 0).
Lemma ramp_to_run t r w v ms : ramp_inv E q r w -> plain E ramp_words v -> v <> B754_zero true -> ramp_ms q ms ->
  exists w1, plays E fp w [ramp_event (At t (To v ms))] w1 /\
    sent w1 = log (sent w) (fst (ramp_step q r (At t (To v ms)))) /\ ramp_inv E q (snd (ramp_step q r (At t (To v ms)))) w1.
Proof.
  intros ((m1 & gm & lf & steps & c & s & -> & _) & G1 & G2 & HT) Hv Hv0 Hms. destruct r as [va st goal left rt g due].
  unfold ramp_world. cbn [r_value r_step r_goal r_left r_time r_grain r_due sent] in *.
  pose proof (ramp_queue_drop due) as HQ. set (Q := ramp_queue due) in HQ |- *. clearbody Q.
  pose proof (ramp_float E v [EF (of_int ms)] Hv) as Hsw. pose proof (metro_one E) as H1. pose proof (metro_off E) as H0.
  pose proof (samples_exact E q rt Hr Hq HT) as Srt. pose proof (samples_exact E q ms Hr Hq Hms) as Sms.
  pose proof (left_test ms q ltac:(lia) ltac:(destruct Hms; nia)) as Hle.
  pose proof (fadd_zero v Hv0) as Hv1.
  unfold ramp_event, ramp_step, ramp_tick, ramp_to; cbn [r_value r_step r_goal r_left r_time r_grain r_due].
  pose proof (done_no E) as D0. pose proof (done_yes E) as D1.
  destruct (Z.leb_spec ms 0) as [L | L]; cbn [fst snd].
  - eexists. split; [apply plays_one |].
    { norm_in Hsw. norm_in H1. norm_in H0. norm_in Srt. norm_in Sms. norm_in D1. norm_in Hle. norm_in HQ. norm_in Hv1.
      norm. run ltac:(first [rewrite Hsw | rewrite thousand | rewrite Srt | rewrite Sms | rewrite H1 | rewrite H0 | rewrite HQ | rewrite Hle | rewrite D1 | rewrite Hv1 | queues]). }
    split; [reflexivity |]. split; [| cbn [r_grain r_time]; repeat split; lia].
    do 6 eexists. split; [reflexivity | discriminate].
  - destruct (left_next q ms g ltac:(lia) L G1 ltac:(destruct Hms; lia) G2) as (N1 & N2 & N3).
    eexists. split; [apply plays_one |].
    { norm_in Hsw. norm_in H1. norm_in H0. norm_in Srt. norm_in Sms. norm_in D0. norm_in Hle. norm_in HQ. norm_in N1.
      norm. run ltac:(first [rewrite Hsw | rewrite thousand | rewrite Srt | rewrite Sms | rewrite H1 | rewrite H0 | rewrite HQ | rewrite Hle | rewrite D0 | rewrite N1 | queues]). }
    split; [reflexivity |]. split; [| cbn [r_grain r_time]; repeat split; lia].
    do 6 eexists. split; [reflexivity | intros t' _; cbn [r_left]; auto].
Qed.
End Target.
