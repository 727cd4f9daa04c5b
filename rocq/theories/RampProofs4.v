(** line: a bare number. *)
From Verif Require Import PatchProofs PatchProofs2 PatchProofs3 PatchProofs4 PatchProofs7 PatchProofs8 RampSpec RampProofs RampProofs2 RampProofs3.
From Coq Require Import Lia.
Open Scope Z_scope.

Section Bare.
Variables (E : env) (q : Z) (k1 k2 : f32).
Hypothesis Hr : whole_rate (e_sr E) (1000 * q).
Hypothesis Hq : 1 <= q <= 1000.
Notation fp := (flatten (line_pd k1 k2) 0).
Lemma ramp_go_run t r w v : ramp_inv E q r w -> plain E ramp_words v -> v <> B754_zero true ->
  exists w1, plays E fp w [ramp_event (At t (Go v))] w1 /\
    sent w1 = log (sent w) (fst (ramp_step q r (At t (Go v)))) /\ ramp_inv E q (snd (ramp_step q r (At t (Go v)))) w1.
Proof.
  intros ((m1 & gm & lf & steps & c & s & -> & _) & G1 & G2 & HT) Hv Hv0. destruct r as [va st goal left ms g due].
  unfold ramp_world. cbn [r_value r_step r_goal r_left r_time r_grain r_due sent] in *.
  pose proof (ramp_queue_drop due) as HQ. set (Q := ramp_queue due) in HQ |- *. clearbody Q.
  pose proof (ramp_float E v [] Hv) as Hsw. pose proof (metro_one E) as H1. pose proof (metro_off E) as H0.
  rename HT into Hms. pose proof (samples_exact E q ms Hr Hq Hms) as Sms.
  pose proof (left_test ms q ltac:(lia) ltac:(destruct Hms; nia)) as Hle.
  pose proof (fadd_zero v Hv0) as Hv1.
  unfold ramp_event, ramp_step, ramp_tick, ramp_to; cbn [r_value r_step r_goal r_left r_time r_grain r_due].
  pose proof (done_no E) as D0. pose proof (done_yes E) as D1.
  destruct (Z.leb_spec ms 0) as [L | L]; cbn [fst snd].
  - eexists. split; [apply plays_one |].
    { norm_in Hsw. norm_in H1. norm_in H0. norm_in Sms. norm_in D1. norm_in Hle. norm_in HQ. norm_in Hv1.
      norm. run ltac:(first [rewrite Hsw | rewrite thousand | rewrite Sms | rewrite H1 | rewrite H0 | rewrite HQ | rewrite Hle | rewrite D1 | rewrite Hv1 | queues]). }
    split; [reflexivity |]. split; [| cbn [r_grain r_time]; repeat split; lia].
    do 6 eexists. split; [reflexivity | discriminate].
  - destruct (left_next q ms g ltac:(lia) L G1 ltac:(destruct Hms; lia) G2) as (N1 & N2 & N3).
    eexists. split; [apply plays_one |].
    { norm_in Hsw. norm_in H1. norm_in H0. norm_in Sms. norm_in D0. norm_in Hle. norm_in HQ. norm_in N1.
      norm. run ltac:(first [rewrite Hsw | rewrite thousand | rewrite Sms | rewrite H1 | rewrite H0 | rewrite HQ | rewrite Hle | rewrite D0 | rewrite N1 | queues]). }
    split; [reflexivity |]. split; [| cbn [r_grain r_time]; repeat split; lia].
    do 6 eexists. split; [reflexivity | intros t' _; cbn [r_left]; auto].
Qed.
End Bare.
