(** line: stop, set, the other inlets, a step. *)
From Verif Require Import PatchProofs PatchProofs2 PatchProofs3 PatchProofs4 PatchProofs7 PatchProofs8 RampSpec RampProofs RampProofs2 RampProofs3.
From Coq Require Import Lia.
Open Scope Z_scope.

Section Rest.
Variables (E : env) (q : Z) (k1 k2 : f32).
Hypothesis Hr : whole_rate (e_sr E) (1000 * q).
Hypothesis Hq : 1 <= q <= 1000.
Notation fp := (flatten (line_pd k1 k2) 0).
Definition keeps (r : ramp) (w : world) (e : moment ramp_in) : Prop :=
  exists w1, plays E fp w [ramp_event e] w1 /\ sent w1 = log (sent w) (fst (ramp_step q r e)) /\ ramp_inv E q (snd (ramp_step q r e)) w1.
Lemma ramp_halt_run t r w : ramp_inv E q r w -> keeps r w (At t Halt).
Proof.
  intros ((m1 & gm & lf & steps & c & s & -> & _) & G1 & G2 & HT). destruct r as [va st goal left rt g due].
  unfold ramp_world, keeps. cbn [r_value r_step r_goal r_left r_time r_grain r_due sent] in *.
  pose proof (ramp_queue_drop due) as HQ. set (Q := ramp_queue due) in HQ |- *. clearbody Q.
  pose proof (ramp_halt E) as Hsw. pose proof (metro_off E) as H0.
  unfold ramp_event, ramp_step; cbn [r_value r_step r_goal r_left r_time r_grain r_due fst snd].
  eexists. split; [apply plays_one |].
  { norm_in Hsw. norm_in H0. norm_in HQ. norm. run ltac:(first [rewrite Hsw | rewrite H0 | rewrite HQ | queues]). }
  split; [cbn [sent]; now rewrite log_nil |]. split; [| cbn [r_grain r_time]; split; [exact G1 | split; [exact G2 | exact HT]]].
  do 6 eexists. split; [reflexivity | discriminate].
Qed.
Lemma ramp_set_run t r w v : ramp_inv E q r w -> v <> B754_zero true -> keeps r w (At t (SetTo v)).
Proof.
  intros ((m1 & gm & lf & steps & c & s & -> & _) & G1 & G2 & HT) Hv0. destruct r as [va st goal left rt g due].
  unfold ramp_world, keeps. cbn [r_value r_step r_goal r_left r_time r_grain r_due sent] in *.
  pose proof (ramp_queue_drop due) as HQ. set (Q := ramp_queue due) in HQ |- *. clearbody Q.
  pose proof (ramp_set E v) as Hsw. pose proof (metro_off E) as H0. pose proof (fadd_zero v Hv0) as Hv1.
  unfold ramp_event, ramp_step; cbn [r_value r_step r_goal r_left r_time r_grain r_due fst snd].
  eexists. split; [apply plays_one |].
  { norm_in Hsw. norm_in H0. norm_in HQ. norm_in Hv1. norm. run ltac:(first [rewrite Hsw | rewrite H0 | rewrite HQ | rewrite Hv1 | queues]). }
  split; [cbn [sent]; now rewrite log_nil |]. split; [| cbn [r_grain r_time]; split; [exact G1 | split; [exact G2 | exact HT]]].
  do 6 eexists. split; [reflexivity | discriminate].
Qed.
Lemma ramp_time_run t r w ms : ramp_inv E q r w -> ramp_ms q ms -> keeps r w (At t (RampTime ms)).
Proof.
  intros ((m1 & gm & lf & steps & c & s & -> & HL) & G1 & G2 & HT) Hms. destruct r as [va st goal left rt g due].
  unfold ramp_world, keeps. cbn [r_value r_step r_goal r_left r_time r_grain r_due sent] in *.
  remember (ramp_queue due) as Q eqn:HQ.
  unfold ramp_event, ramp_step; cbn [r_value r_step r_goal r_left r_time r_grain r_due fst snd].
  eexists. split; [apply plays_one |].
  { clear HQ. norm. run ltac:(queues). }
  split; [cbn [sent]; now rewrite log_nil |]. split; [| cbn [r_grain r_time]; split; [exact G1 | split; [exact G2 | exact Hms]]].
  subst Q. do 6 eexists. split; [reflexivity | exact HL].
Qed.
Lemma ramp_grain_run t r w ms : ramp_inv E q r w -> - 2 ^ 24 <= ms -> 125 * q * ms <= 2 ^ 24 -> keeps r w (At t (Grain ms)).
Proof.
  intros ((m1 & gm & lf & steps & c & s & -> & HL) & G1 & G2 & HT) Hms1 Hms2. destruct r as [va st goal left rt g due].
  unfold ramp_world, keeps. cbn [r_value r_step r_goal r_left r_time r_grain r_due sent] in *.
  remember (ramp_queue due) as Q eqn:HQ.
  unfold ramp_event, ramp_step, grain_of; cbn [r_value r_step r_goal r_left r_time r_grain r_due fst snd].
  destruct (Z.leb_spec ms 0) as [L | L].
  - assert (Hp20 : metro_period E (of_int 20) = Ok (20 * q)) by (apply period_exact; first [exact Hr | lia]).
    pose proof (samples_exact E q 20 Hr Hq ltac:(split; lia)) as S20. pose proof (grain_zero E) as Hsw. pose proof (fmax_neg ms ltac:(lia)) as Hm.
    eexists. split; [apply plays_one |].
    { clear HQ HL. norm_in Hp20. norm_in S20. norm_in Hsw. norm_in Hm.
      norm. run ltac:(first [rewrite Hm | rewrite thousand | rewrite Hp20 | rewrite S20 | rewrite Hsw | queues]). }
    split; [cbn [sent]; now rewrite log_nil |]. split; [| cbn [r_grain r_time]; split; [lia | split; [lia | exact HT]]].
    subst Q. do 6 eexists. split; [reflexivity | exact HL].
  - assert (Hpg : metro_period E (of_int ms) = Ok (ms * q)) by (apply period_exact; first [exact Hr | nia]).
    pose proof (samples_exact E q ms Hr Hq ltac:(split; lia)) as Sg. pose proof (grain_switch E ms ltac:(nia)) as Hsw. pose proof (fmax_grain ms ltac:(nia)) as Hm.
    eexists. split; [apply plays_one |].
    { clear HQ HL. norm_in Hpg. norm_in Sg. norm_in Hsw. norm_in Hm.
      norm. run ltac:(first [rewrite Hm | rewrite thousand | rewrite Hpg | rewrite Sg | rewrite Hsw | queues]). }
    split; [cbn [sent]; now rewrite log_nil |]. split; [| cbn [r_grain r_time]; split; [lia | split; [lia | exact HT]]].
    subst Q. do 6 eexists. split; [reflexivity | exact HL].
Qed.
Lemma ramp_next_run r w : ramp_inv E q r w -> (forall t, r_due r = Some t -> r_goal r <> B754_zero true) -> keeps r w Next.
Proof.
  intros ((m1 & gm & lf & steps & c & s & -> & HL) & G1 & G2 & HT) Hv0. destruct r as [va st goal left rt g due].
  unfold ramp_world, keeps. cbn [r_value r_step r_goal r_left r_time r_grain r_due sent] in *.
  destruct due as [t |].
  2:{ unfold ramp_event, ramp_step; cbn [r_value r_step r_goal r_left r_time r_grain r_due fst snd].
      eexists. split; [apply plays_none; reflexivity |]. split; [cbn [sent]; now rewrite log_nil |].
      split; [| cbn [r_grain r_time]; split; [exact G1 | split; [exact G2 | exact HT]]]. do 6 eexists. split; [reflexivity | discriminate]. }
  destruct (HL t eq_refl) as (-> & L1 & L2). specialize (Hv0 t eq_refl).
  pose proof (metro_off E) as H0. pose proof (left_test left q ltac:(lia) ltac:(nia)) as Hle. pose proof (fadd_zero goal Hv0) as Hv1.
  unfold ramp_event, ramp_step, ramp_tick; cbn [r_value r_step r_goal r_left r_time r_grain r_due].
  pose proof (done_no E) as D0. pose proof (done_yes E) as D1.
  destruct (Z.leb_spec left 0) as [L | L]; cbn [fst snd].
  - eexists. split; [eapply plays_next; [reflexivity |] |].
    { norm_in H0. norm_in D1. norm_in Hle. norm_in Hv1.
      norm. run ltac:(first [rewrite H0 | rewrite Hle | rewrite D1 | rewrite Hv1 | queues]). }
    split; [reflexivity |]. split; [| cbn [r_grain r_time]; split; [exact G1 | split; [exact G2 | exact HT]]].
    do 6 eexists. split; [reflexivity | discriminate].
  - destruct (left_next q left g ltac:(lia) L G1 L2 G2) as (N1 & N2 & N3).
    eexists. split; [eapply plays_next; [reflexivity |] |].
    { norm_in D0. norm_in Hle. norm_in N1. norm. run ltac:(first [rewrite Hle | rewrite D0 | rewrite N1 | queues]). }
    split; [reflexivity |]. split; [| cbn [r_grain r_time]; split; [exact G1 | split; [exact G2 | exact HT]]].
    do 6 eexists. split; [reflexivity | intros t' _; cbn [r_left]; auto].
Qed.
End Rest.
