(** Number boxes, conversions, div, midiin, random: theorems. *)
From Verif Require Import PatchSpec4 PatchProofs PatchProofs2 PatchProofs13 PatchProofs14 PatchProofs15 PatchProofs16.
From Verif Require Import Float32Facts.
From Coq Require Import Lia Reals Lra.
From Flocq Require Import Core.
Open Scope Z_scope.

(** float passes a number and keeps it; bang repeats it; the right inlet sets it. *)
Theorem float_keeps_a_number E k l : sends E (f_pd (EF k)) (map swap_event l) (float_spec k l).
Proof. apply f_sends. Qed.
Print Assumptions float_keeps_a_number.
(** Sliders and number boxes. *)
Theorem sliders_pass_numbers E l : sends E nbx_pd (map slider_event l) (slider_spec (of_int 0) l).
Proof. apply nbx_sends. Qed.
Print Assumptions sliders_pass_numbers.
Theorem number_boxes_pass_numbers E k l : sends E (floatatom_pd k) (map slider_event l) (slider_spec k l).
Proof. apply floatatom_sends. Qed.
Print Assumptions number_boxes_pass_numbers.
(** A list at float: all of it is sent, not its first number. *)
Theorem float_list_refuted E k t x y : sends E (f_pd (EF k)) [In_ t 0 [EF x; EF y]] [(t, O, [EF x; EF y])].
Proof. apply f_list. Qed.
Print Assumptions float_list_refuted.

(** wrap: the fractional part. *)
Theorem wrap_is_the_fraction E : exists f, converts E wrap_pd f /\
  forall x, is_finite x = true -> is_finite (f x) = true /\ (0 <= val (f x) <= 1)%R /\ (Rabs (val (f x) - (val x - IZR (Zfloor (val x)))) <= / 33554432)%R.
Proof.
  exists wrap_value. split; [apply wrap_converts |]. intros x F. destruct (wrap_accurate x F) as (A & B & C). split; [exact B | split; [exact A | exact C]].
Qed.
Print Assumptions wrap_is_the_fraction.
(** mtof, from the pitches -1000 to 1000. *)
Theorem mtof_is_the_frequency E : pow_accurate E -> exists f, converts E mtof_pd f /\
  forall x, is_finite x = true -> (Rabs (val x) <= 1000)%R -> let y := (440 * Rpower 2 ((val x - 69) / 12))%R in
    is_finite (f x) = true /\ (Rabs (val (f x) - y) <= / 50000 * y)%R.
Proof. intros HE. exists (mtof_value E). split; [apply mtof_converts |]. intros x F H. apply mtof_accurate; assumption. Qed.
Print Assumptions mtof_is_the_frequency.
(** ftom, from 2^-90 Hz; -1500 for what is no frequency. *)
Theorem ftom_is_the_pitch E : log_accurate E -> exists f, converts E ftom_pd f /\
  (forall x, is_finite x = true -> (bpow radix2 (-90) <= val x)%R ->
     is_finite (f x) = true /\ (Rabs (val (f x) - (69 + 12 * (ln (val x / 440) / ln 2))) <= / 400)%R) /\
  (forall x, is_finite x = true -> (val x <= 0)%R -> val (f x) = (-1500)%R).
Proof.
  intros HE. exists (ftom_value E). split; [apply ftom_converts |]. split; [intros x F H; apply ftom_accurate; assumption |].
  intros x F H. unfold ftom_value. rewrite not_positive by assumption. apply int_R5. 
Qed.
Print Assumptions ftom_is_the_pitch.
(** dbtorms and dbtopow. *)
Theorem dbtorms_is_the_amplitude E : pow_accurate E -> exists f, converts E dbtorms_pd f /\
  (forall x, is_finite x = true -> (0 < val x <= 485)%R -> let y := Rpower 10 ((val x - 100) / 20) in
     is_finite (f x) = true /\ (Rabs (val (f x) - y) <= / 40000 * y)%R) /\
  (forall x, is_finite x = true -> (val x <= 0)%R -> val (f x) = 0%R) /\
  (forall x, is_finite x = true -> (485 < val x)%R -> f x = f (of_int 485)).
Proof.
  intros HE. exists (dbto_value E 485 20). split; [apply dbtorms_converts |]. split; [| split].
  - intros x F [H1 H2]. apply (dbto_accurate E 485 20 x HE); auto.
  - intros x F H. apply dbto_zero; assumption.
  - intros x F H. apply dbto_limit; [lia | exact F | exact H].
Qed.
Print Assumptions dbtorms_is_the_amplitude.
Theorem dbtopow_is_the_power E : pow_accurate E -> exists f, converts E dbtopow_pd f /\
  (forall x, is_finite x = true -> (0 < val x <= 450)%R -> let y := Rpower 10 ((val x - 100) / 10) in
     is_finite (f x) = true /\ (Rabs (val (f x) - y) <= / 40000 * y)%R) /\
  (forall x, is_finite x = true -> (val x <= 0)%R -> val (f x) = 0%R) /\
  (forall x, is_finite x = true -> (870 < val x)%R -> f x = f (of_int 870)).
Proof.
  intros HE. exists (dbto_value E 870 10). split; [apply dbtopow_converts |]. split; [| split].
  - intros x F [H1 H2]. apply (dbto_accurate E 870 10 x HE); auto.
  - intros x F H. apply dbto_zero; assumption.
  - intros x F H. apply dbto_limit; [lia | exact F | exact H].
Qed.
Print Assumptions dbtopow_is_the_power.
(** rmstodb and powtodb. *)
Theorem rmstodb_is_the_level E : log_accurate E -> exists f, converts E rmstodb_pd f /\
  (forall x, is_finite x = true -> (0 < val x)%R ->
     is_finite (f x) = true /\ (Rabs (val (f x) - Rmax (100 + 20 * (ln (val x) / ln 10)) 0) <= / 500)%R) /\
  (forall x, is_finite x = true -> (val x <= 0)%R -> val (f x) = 0%R).
Proof.
  intros HE. exists (todb_value E 20). split; [apply rmstodb_converts |]. split.
  - intros x F H. apply (todb_accurate E 20 x HE); auto.
  - intros x F H. apply todb_zero; assumption.
Qed.
Print Assumptions rmstodb_is_the_level.
Theorem powtodb_is_the_level E : log_accurate E -> exists f, converts E powtodb_pd f /\
  (forall x, is_finite x = true -> (0 < val x)%R ->
     is_finite (f x) = true /\ (Rabs (val (f x) - Rmax (100 + 10 * (ln (val x) / ln 10)) 0) <= / 500)%R) /\
  (forall x, is_finite x = true -> (val x <= 0)%R -> val (f x) = 0%R).
Proof.
  intros HE. exists (todb_value E 10). split; [apply powtodb_converts |]. split.
  - intros x F H. apply (todb_accurate E 10 x HE); auto.
  - intros x F H. apply todb_zero; assumption.
Qed.
Print Assumptions powtodb_is_the_level.

(** div: whole numbers up to 2^24. *)
Theorem div_drops_the_remainder E k l : Z.abs k <= 2 ^ 24 -> Forall (fun e => Z.abs (snd (snd e)) <= 2 ^ 24) l ->
  sends E (div_pd (of_int k)) (map div_event l) (div_spec k l).
Proof. apply div_sends. Qed.
Print Assumptions div_drops_the_remainder.

(** midiin and midirealtimein: the byte, and the port (from 1 on at midiin). *)
Theorem midiin_reports E l : Forall (fun e => 0 <= snd (snd e) < 2 ^ 24) l -> sends E midiin_pd (map value_event l) (midiin_spec l).
Proof. apply midiin_sends. Qed.
Print Assumptions midiin_reports.
Theorem midirealtimein_reports E l : sends E midirealtimein_pd (map value_event l) (realtimein_spec l).
Proof. apply realtimein_sends. Qed.
Print Assumptions midirealtimein_reports.

(** random: whole numbers below the bound, whatever the seed. *)
Theorem random_stays_below E s k l : 1 <= k <= 2 ^ 24 -> random_ok l ->
  exists o, sends E (random_pd s (of_int k)) (map random_event l) o /\ random_answers k l o.
Proof. intros Hk Hl. eexists. split; [apply random_sends, Hl | apply random_out_answers; assumption]. Qed.
Print Assumptions random_stays_below.
(** After the same seed the numbers are the same. *)
Theorem random_repeats E s1 s2 k t n l o : 0 <= n < 2 ^ 24 -> random_ok l ->
  sends E (random_pd s1 (of_int k)) (map random_event ((t, RSeed n) :: l)) o -> sends E (random_pd s2 (of_int k)) (map random_event ((t, RSeed n) :: l)) o.
Proof. apply random_seeded. Qed.
Print Assumptions random_repeats.

(** The assumptions about the C library can be met. *)
Example library : pow_accurate (exact_env 48000) /\ log_accurate (exact_env 48000).
Proof. split; [apply exact_pow | apply exact_log]. Qed.
Example mtof_69 : exists f, converts (exact_env 48000) mtof_pd f /\ (Rabs (val (f (of_int 69)) - 440) <= / 100)%R.
Proof.
  destruct (mtof_is_the_frequency (exact_env 48000) (exact_pow 48000)) as (f & C & H). exists f. split; [exact C |].
  destruct (of_int_exact 69 ltac:(lia)) as [V F]. destruct (H (of_int 69) F) as [_ B].
  - unfold val. rewrite V. rewrite Rabs_pos_eq; lra.
  - change (val (of_int 69)) with (B2R (of_int 69)) in B. rewrite V in B. cbv zeta in B. replace ((69 - 69) / 12)%R with 0%R in B by lra. rewrite !Rpower_O in B by lra. rewrite Rmult_1_r in B. lra.
Qed.
Example float_example E x : sends E (f_pd (EF fzero)) (map swap_event [(0, SBang); (1, SLeft x); (2, SRight (of_int 5)); (3, SBang)])
  [(0, O, [EF fzero]); (1, O, [EF x]); (3, O, [EF (of_int 5)])].
Proof. apply (float_keeps_a_number E fzero [(0, SBang); (1, SLeft x); (2, SRight (of_int 5)); (3, SBang)]). Qed.
Example conv_example (x : f32) : conv_ok [(0, VNum x); (1, VOther [EB]); (2, VOther [word "a"; EF x])].
Proof. repeat constructor. Qed.
Example div_example E : sends E (div_pd (of_int 3)) (map div_event [(0, (true, -7)); (1, (false, 0)); (2, (true, 5)); (3, (false, 2)); (4, (true, 9))])
  [(0, O, [whole (-2)]); (2, O, [whole 0]); (4, O, [whole 4])].
Proof. apply (div_drops_the_remainder E 3 [(0, (true, -7)); (1, (false, 0)); (2, (true, 5)); (3, (false, 2)); (4, (true, 9))]); [lia |]. repeat (apply Forall_cons; [cbn; lia |]). apply Forall_nil. Qed.
Example midiin_example E : sends E midiin_pd (map value_event [(0, (of_int 144, 0)); (0, (of_int 60, 0))])
  [(0, 1%nat, [whole 1]); (0, O, [EF (of_int 144)]); (0, 1%nat, [whole 1]); (0, O, [EF (of_int 60)])].
Proof. apply (midiin_reports E [(0, (of_int 144, 0)); (0, (of_int 60, 0))]). repeat constructor; cbn; lia. Qed.
Example random_example : random_ok [(0, RBang); (1, RSeed 17); (2, RBound 6); (3, RBang)].
Proof. repeat constructor; cbn; lia. Qed.
