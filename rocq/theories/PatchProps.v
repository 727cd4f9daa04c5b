(** The message objects of Pd, as abstractions in /repo/hvcc/interpreters/pd2hv/libs/pd.
    [sends E p l o]: the patch [p], loaded at time 0, sends exactly [o] (time, outlet, message) in the course of
    the inputs [l]. *)
From Verif Require Import PatchSpec3 TimeSpec TimeProofs RecorderProofs Float32Facts Float64 Float64Facts.
From Verif Require Import PatchProofs PatchProofs2 PatchProofs3 PatchProofs4 PatchProofs5 PatchProofs6 PatchProofs7 PatchProofs8
  PatchProofs9 PatchProofs10 PatchProofs11 PatchProofs12.
From Coq Require Import Reals Lia Lra.
From Flocq Require Import Core.
Open Scope Z_scope.

(** Runs are determined by their inputs. *)
Theorem patch_runs_deterministic E p l o1 o2 : sends E p l o1 -> sends E p l o2 -> o1 = o2.
Proof. apply sends_det. Qed.
Print Assumptions patch_runs_deterministic.

Theorem moses_splits E k l : sends E (moses_pd k) (map number_event l) (moses_spec k l).
Proof. apply moses_sends. Qed.
Print Assumptions moses_splits.
Example moses_example E : sends E (moses_pd (of_int 5)) (map number_event [(0, Left_ (of_int 4)); (1, Right_ (of_int 3)); (2, Left_ (of_int 4))])
  [(0, 0%nat, [whole 4]); (2, 1%nat, [whole 4])].
Proof. apply (moses_splits E (of_int 5) [(0, Left_ (of_int 4)); (1, Right_ (of_int 3)); (2, Left_ (of_int 4))]). Qed.

Theorem spigot_gates E k l : sends E (spigot_pd k) (map gate_event l) (spigot_spec k l).
Proof. apply spigot_sends. Qed.
Print Assumptions spigot_gates.
Example spigot_example E m : sends E (spigot_pd fzero) (map gate_event [(0, GMsg m); (1, GNum (of_int 2)); (2, GMsg m)]) [(2, 0%nat, m)].
Proof. apply (spigot_gates E fzero [(0, GMsg m); (1, GNum (of_int 2)); (2, GMsg m)]). Qed.

Ltac plain_ints := unfold change_ok, swap_ok, plain, change_words, swap_words;
  repeat (cbn [snd]; first [exact I | apply Forall_nil | apply Forall_cons | (vm_compute; discriminate)]).
Theorem change_passes_changes E k l : change_ok E l -> sends E (change_pd k) (map change_event l) (change_spec k l).
Proof. apply change_sends. Qed.
Print Assumptions change_passes_changes.
(** 0.1252963 *)
Theorem change_refuted E k t : feqb set_number k = false ->
  sends E (change_pd k) [change_event (t, CFloat set_number)] [] /\ change_spec k [(t, CFloat set_number)] <> [].
Proof. intros H. split; [apply change_set_number |]. cbn [change_spec]. rewrite H. discriminate. Qed.
Print Assumptions change_refuted.
Example change_example E : sends E (change_pd fzero) (map change_event [(0, CFloat (of_int 3)); (1, CFloat (of_int 3)); (2, CFloat (of_int 4)); (3, CBang)])
  [(0, 0%nat, [whole 3]); (2, 0%nat, [whole 4]); (3, 0%nat, [whole 4])].
Proof.
  apply (change_passes_changes E fzero [(0, CFloat (of_int 3)); (1, CFloat (of_int 3)); (2, CFloat (of_int 4)); (3, CBang)]). plain_ints.
Qed.

Theorem swap_swaps E k l : swap_ok E l -> sends E (swap_pd k) (map swap_event l) (swap_spec (of_int 0) k l).
Proof. apply swap_sends. Qed.
Print Assumptions swap_swaps.
Example swap_example E : sends E (swap_pd (of_int 7)) (map swap_event [(0, SLeft (of_int 3)); (1, SRight (of_int 9)); (2, SBang)])
  [(0, 1%nat, [whole 3]); (0, 0%nat, [whole 7]); (2, 1%nat, [whole 3]); (2, 0%nat, [whole 9])].
Proof.
  apply (swap_swaps E (of_int 7) [(0, SLeft (of_int 3)); (1, SRight (of_int 9)); (2, SBang)]). plain_ints.
Qed.

Theorem int_truncates E k l : sends E (int_pd (EF k)) (map swap_event l) (int_spec k l).
Proof. apply int_sends. Qed.
Print Assumptions int_truncates.
Example int_example E : sends E (int_pd (EF fzero)) (map swap_event [(0, SLeft (of_int (-3))); (1, SBang)])
  [(0, 0%nat, [whole (-3)]); (1, 0%nat, [whole (-3)])].
Proof.
  assert (H : Bnearbyint mode_ZR (of_int (-3)) = of_int (-3)) by (apply B2SF_inj; vm_compute; reflexivity).
  pose proof (int_truncates E fzero [(0, SLeft (of_int (-3))); (1, SBang)]) as R. cbn [int_spec] in R. rewrite H in R. exact R.
Qed.

Theorem clip_clips E lo hi l : clip_ok lo hi l -> sends E (clip_pd lo hi) (map clip_event l) (clip_spec lo hi l).
Proof. apply clip_sends. Qed.
Print Assumptions clip_clips.
Example clip_example E : sends E (clip_pd fzero (of_int 5)) (map clip_event [(0, PIn (of_int 9)); (1, PHigh (of_int 6)); (2, PIn (of_int 9))])
  [(0, 0%nat, [whole 5]); (2, 0%nat, [whole 6])].
Proof. apply (clip_clips E fzero (of_int 5) [(0, PIn (of_int 9)); (1, PHigh (of_int 6)); (2, PIn (of_int 9))]). vm_compute. tauto. Qed.

Theorem tgl_toggles E l : sends E tgl_pd (map tgl_event l) (tgl_spec false l).
Proof. apply tgl_sends. Qed.
Print Assumptions tgl_toggles.
Example tgl_example E : sends E tgl_pd (map tgl_event [(0, TBang); (1, TBang); (2, TNum (of_int 3)); (3, TBang)])
  [(0, 0%nat, [whole 1]); (1, 0%nat, [EF fzero]); (2, 0%nat, [whole 3]); (3, 0%nat, [EF fzero])].
Proof. apply (tgl_toggles E [(0, TBang); (1, TBang); (2, TNum (of_int 3)); (3, TBang)]). Qed.

(** ** MIDI input *)
Theorem notein_filters E k l : 0 <= k <= 2 ^ 24 -> Forall note_ok l ->
  sends E (notein_pd (of_int k)) (map note_event l) (notein_spec k l) /\
  sends E (polytouchin_pd (of_int k)) (map note_event l) (notein_spec k l).
Proof. intros Hk Hl. split; [apply notein_sends | apply polytouchin_sends]; assumption. Qed.
Print Assumptions notein_filters.
Theorem midi_values_filtered E k l : 0 <= k <= 2 ^ 24 -> Forall value_ok l ->
  sends E (bendin_pd (of_int k)) (map value_event l) (valuein_spec false k l) /\
  sends E (touchin_pd (of_int k)) (map value_event l) (valuein_spec false k l) /\
  sends E (pgmin_pd (of_int k)) (map value_event l) (valuein_spec true k l).
Proof. intros Hk Hl. split; [apply bendin_sends | split; [apply touchin_sends | apply pgmin_sends]]; assumption. Qed.
Print Assumptions midi_values_filtered.
Theorem ctlin_filters E n0 c0 l : ctl_args n0 c0 -> Forall (ctl_ok n0) l ->
  sends E (ctlin_pd (of_int n0) (of_int c0)) (map ctl_event l) (ctlin_spec n0 c0 l).
Proof. apply ctlin_sends. Qed.
Print Assumptions ctlin_filters.
Example midi_in_example E p v x :
  sends E (notein_pd (of_int 2)) (map note_event [(0, (p, v, 1)); (5, (p, v, 2))]) [(0, 2%nat, [whole 2]); (0, 1%nat, [EF v]); (0, 0%nat, [EF p]); (5, 2%nat, [whole 3])] /\
  sends E (ctlin_pd (of_int 7) (of_int 3)) (map ctl_event [(0, (x, 7, 2)); (1, (x, 8, 2)); (2, (x, 7, 3))]) [(0, 0%nat, [EF x])].
Proof.
  split; [apply (notein_filters E 2 [(0, (p, v, 1)); (5, (p, v, 2))]) | apply (ctlin_filters E 7 3 [(0, (x, 7, 2)); (1, (x, 8, 2)); (2, (x, 7, 3))])];
  unfold ctl_args; repeat constructor; cbn; lia.
Qed.
(** Controller 0: the channel is sent to the outlet of the controller; "ctlin 0 K" ignores the channel. *)
Theorem ctlin_zero_refuted E t x c : 0 <= c < 2 ^ 24 ->
  sends E (ctlin_pd (of_int 0) (of_int 0)) [ctl_event (t, (x, 0, c))]
    [(t, 2%nat, [whole (c + 1)]); (t, 1%nat, [whole 0]); (t, 1%nat, [whole (c + 1)]); (t, O, [EF x])].
Proof. apply ctlin_zero. Qed.
Print Assumptions ctlin_zero_refuted.
Theorem ctlin_channel_refuted E K t x n c : 1 <= K <= 2 ^ 24 -> 1 <= n < 2 ^ 24 -> 0 <= c < 2 ^ 24 -> c + 1 <> K ->
  sends E (ctlin_pd (of_int 0) (of_int K)) [ctl_event (t, (x, n, c))]
    [(t, 2%nat, [whole (c + 1)]); (t, 1%nat, [whole n]); (t, O, [EF x])].
Proof. apply ctlin_zero_channel. Qed.
Print Assumptions ctlin_channel_refuted.

(** ** MIDI output *)
Theorem midi_notes_sent E k l : 0 <= k <= 2 ^ 24 -> Forall out3_ok l ->
  sends E (noteout_pd (of_int k)) (map out3_event l) (out3_spec (of_int 0) k l) /\
  sends E (polytouchout_pd (of_int k)) (map out3_event l) (out3_spec (of_int 0) k l) /\
  forall n0, sends E (ctlout_pd n0 (of_int k)) (map out3_event l) (out3_spec n0 k l).
Proof. intros Hk Hl. split; [apply noteout_sends | split; [apply polytouchout_sends | intros n0; apply ctlout_sends]]; assumption. Qed.
Print Assumptions midi_notes_sent.
Theorem midi_values_sent E k l : 0 <= k <= 2 ^ 24 -> Forall out2_ok l ->
  sends E (bendout_pd (of_int k)) (map out2_event l) (out2_spec (fun x => x + 8192) k l) /\
  sends E (pgmout_pd (of_int k)) (map out2_event l) (out2_spec (fun x => Z.max (x - 1) 0) k l) /\
  sends E (touchout_pd (of_int k)) (map out2_event l) (out2_spec (fun x => x) k l).
Proof. intros Hk Hl. split; [apply bendout_sends | split; [apply pgmout_sends | apply touchout_sends]]; assumption. Qed.
Print Assumptions midi_values_sent.
Example midi_out_example E p v :
  sends E (noteout_pd (of_int 3)) (map out3_event [(0, OSecond v); (1, OVal p); (2, OChan 16); (3, OVal p)])
    [(1, 0%nat, [EF p; EF v; whole 2]); (3, 0%nat, [EF p; EF v; whole 15])] /\
  sends E (bendout_pd (of_int 1)) (map out2_event [(0, OWhole (-8192)); (1, OWhole 8191)]) [(0, 0%nat, [whole 0; whole 0]); (1, 0%nat, [whole 16383; whole 0])].
Proof.
  split; [apply (midi_notes_sent E 3 [(0, OSecond v); (1, OVal p); (2, OChan 16); (3, OVal p)])
         | apply (midi_values_sent E 1 [(0, OWhole (-8192)); (1, OWhole 8191)])];
  unfold out3_ok, out2_ok; repeat constructor; cbn; lia.
Qed.
(** A list at the left inlet does not stand for one message per inlet. *)
Theorem midi_out_list_refuted E k t p v x c : 0 <= k <= 2 ^ 24 ->
  sends E (noteout_pd (of_int k)) [In_ t 0 [EF p; EF v; whole c]] [(t, O, [EF p; EF v; whole c])] /\
  sends E (bendout_pd (of_int k)) [In_ t 0 [EF x; whole c]] [(t, O, [EF (fadd x (of_int c)); midi_channel k])].
Proof. intros Hk. split; [apply noteout_list, Hk | apply bendout_list, Hk]. Qed.
Print Assumptions midi_out_list_refuted.

(** ** Time *)
(** Milliseconds that a delay accepts at [r] samples per second. *)
Definition ms_ok (r : Z) (ms : f32) : Prop := is_finite ms = true /\ (samples_in (Rmax 0 (R32 ms)) (IZR r) < 4294967296)%R.
Definition ms_samples (r : Z) (ms : f32) : Z := Zfloor (samples_in (Rmax 0 (R32 ms)) (IZR r)).
Theorem delay_delays E r k l : whole_rate (e_sr E) r -> 1 <= r < 2 ^ 27 ->
  Forall (fun e => match e with At _ (DNum ms) => plain E stop_words ms /\ ms_ok r ms | At _ (DTime ms) => ms_ok r ms | _ => True end) l ->
  sends E (delay_pd (ms_samples r k)) (map delay_event l) (delay_spec (ms_samples r) (ms_samples r k) None l).
Proof.
  intros Hr Hr' Hl. apply delay_sends. eapply Forall_impl; [| exact Hl].
  intros [t [| ms | | ms] |]; cbv beta iota; try tauto.
  - intros [Hp [H1 H2]]. split; [exact Hp | apply (ms_to_samples_exact (e_sr E) r); assumption].
  - intros [H1 H2]. apply (ms_to_samples_exact (e_sr E) r); assumption.
Qed.
Print Assumptions delay_delays.

Theorem pipe_delays E r k l : whole_rate (e_sr E) r -> 1 <= r < 2 ^ 27 ->
  Forall (fun e => match e with At _ (PMsg m) => plain_msg m | At _ (PTime ms) => ms_ok r ms | Next => True end) l ->
  pipe_ok (ms_samples r) (ms_samples r k) [] l ->
  sends E (pipe_pd (ms_samples r k)) (map pipe_event l) (pipe_spec (ms_samples r) (ms_samples r k) [] l).
Proof.
  intros Hr Hr' Hl Hq. apply pipe_sends; [| exact Hq]. eapply Forall_impl; [| exact Hl].
  intros [t [m | ms] |]; cbv beta iota; try tauto. intros [H1 H2]. apply (ms_to_samples_exact (e_sr E) r); assumption.
Qed.
Print Assumptions pipe_delays.

(** At 1000 q samples per second, periods of n whole milliseconds. *)
Definition whole_ms (q : Z) (ms : f32) : Prop := exists n, ms = of_int n /\ 1 <= n /\ n * q <= 2 ^ 24.
Theorem metro_ticks E q k l : whole_rate (e_sr E) (1000 * q) -> 1 <= q <= 1000 -> whole_ms q k ->
  Forall (fun e => match e with At _ (MNum x) => plain E metro_words x | At _ (MPeriod ms) => whole_ms q ms | _ => True end) l ->
  sends E (metro_pd k) (map metro_event l) (metro_spec (fun ms => Btrunc ms * q) (Btrunc k * q) None l).
Proof.
  intros Hr Hq Hk Hl.
  assert (H : forall ms, whole_ms q ms -> metro_period E ms = Ok (Btrunc ms * q)).
  { intros ms (n & -> & Hn & Hnq). assert (n <= 2 ^ 24) by nia. rewrite (period_exact E q n Hr Hq Hn Hnq). do 2 f_equal.
    rewrite trunc_R. destruct (of_int_exact n) as [A _]; [lia |]. rewrite A, Ztrunc_IZR. reflexivity. }
  apply (metro_sends E (fun ms => Btrunc ms * q)); [exact (H k Hk) |]. eapply Forall_impl; [| exact Hl].
  intros [t [| x | | | ms] |]; cbv beta iota; try tauto. apply H.
Qed.
Print Assumptions metro_ticks.
(** At every rate: equal distances, as the patch computes them. *)
Theorem metro_steady E (samples : f32 -> Z) k l : metro_period E k = Ok (samples k) -> metro_ok E samples l ->
  sends E (metro_pd k) (map metro_event l) (metro_spec samples (samples k) None l).
Proof. apply metro_sends. Qed.
Print Assumptions metro_steady.
(** 90 ms at 44100 samples per second are 3969 samples. *)
Theorem metro_period_refuted E t : e_sr E = d_of_int 44100 ->
  sends E (metro_pd (of_int 90)) (map metro_event [At t MBang; Next; Next]) [(t, O, [EB]); (t + 3968, O, [EB]); (t + 3968 + 3968, O, [EB])]
  /\ samples_in 90 44100 = 3969%R.
Proof. intros Hr. split; [apply metro_90, Hr | unfold samples_in; lra]. Qed.
Print Assumptions metro_period_refuted.
Theorem metro_minus_zero_refuted E (samples : f32 -> Z) k t : metro_period E k = Ok (samples k) ->
  feqb (B754_zero true) fzero = true /\ sends E (metro_pd k) [In_ t 0 [EF (B754_zero true)]] [(t, O, [EB])].
Proof. intros Hk. split; [reflexivity | apply (metro_minus_zero E samples), Hk]. Qed.
Print Assumptions metro_minus_zero_refuted.

Theorem timer_measures E q l : whole_rate (e_sr E) (1000 * q) -> 1 <= q <= 1000 ->
  exists ms, sends E timer_pd (map timer_event l) (timer_spec ms 0 l) /\
    forall t0 t, 0 <= t0 <= 2 ^ 24 -> 0 <= t <= 2 ^ 24 -> is_finite (ms t0 t) = true /\ R32 (ms t0 t) = rnd32 (IZR (t - t0) / IZR q).
Proof.
  intros Hr Hq. exists (timer_value E). split; [| intros t0 t; apply timer_exact; assumption].
  apply timer_sends. rewrite (rate_exact E q Hr Hq). change fzero with (of_int 0).
  rewrite of_int_feqb by lia. apply Z.eqb_neq. lia.
Qed.
Print Assumptions timer_measures.
Theorem timer_refuted E : e_sr E = d_of_int 48000 ->
  sends E timer_pd (map timer_event [(16777216, TStart); (16777217, TAsk)]) [(16777217, O, [EF fzero])].
Proof. apply timer_stuck. Qed.
Print Assumptions timer_refuted.

Theorem until_counts E l : until_ok l -> sends E until_pd (map until_event l) (until_spec l).
Proof. apply until_sends. Qed.
Print Assumptions until_counts.
(** A larger number is never finished; bang does nothing. *)
Theorem until_refuted E t (x : f32) : is_finite x = true -> 2 ^ 24 < Btrunc x ->
  (forall o, ~ sends E until_pd [In_ t 0 [EF x]] o) /\ (forall r, ~ fails E until_pd [In_ t 0 [EF x]] r) /\
  sends E until_pd [In_ t 0 [EB]] [].
Proof. intros Fx Hx. destruct (until_endless E t x Fx Hx) as [A B]. split; [exact A | split; [exact B | apply until_bang]]. Qed.
Print Assumptions until_refuted.

Theorem makenote_ends_notes E r k1 k2 l : whole_rate (e_sr E) r -> 1 <= r < 2 ^ 27 -> ms_ok r k2 ->
  Forall (fun e => match e with At _ (KDur ms) => ms_ok r ms | _ => True end) l ->
  make_ok (ms_samples r) k1 (ms_samples r k2) [] l ->
  sends E (makenote_pd k1 k2) (map make_event l) (make_spec (ms_samples r) k1 (ms_samples r k2) [] l).
Proof.
  intros Hr Hr' Hk Hl Hq.
  assert (H : forall ms, ms_ok r ms -> duration E ms = Ok (ms_samples r ms)).
  { intros ms [H1 H2]. unfold duration, ms_samples.
    assert (F : is_finite (fmax ms fzero) = true /\ Rmax 0 (R32 (fmax ms fzero)) = Rmax 0 (R32 ms)).
    { unfold fmax. replace (is_nan ms) with false by (destruct ms; try discriminate H1; reflexivity). cbn [is_nan fzero].
      unfold fltb. rewrite Bltb_correct by (exact H1 || reflexivity). change (B2R fzero) with 0%R.
      destruct (Rlt_bool_spec (R32 ms) 0) as [N | N]; [| split; [exact H1 | reflexivity]].
      split; [reflexivity |]. rewrite (Rmax_left 0 (R32 ms)) by lra. apply Rmax_left. apply Rle_refl. }
    destruct F as [F1 F2]. rewrite <- F2. apply ms_to_samples_exact; [exact Hr | exact Hr' | exact F1 | rewrite F2; exact H2]. }
  apply make_sends; [exact (H k2 Hk) | | exact Hq]. eapply Forall_impl; [| exact Hl].
  intros [t [p | v | ms] |]; cbv beta iota; try tauto. apply H.
Qed.
Print Assumptions makenote_ends_notes.
(** Nine notes at once. *)
Theorem makenote_refuted E k1 k2 d l : duration E k2 = Ok d -> feqb k1 fzero = false -> List.length l = 9%nat ->
  fails E (makenote_pd k1 k2) (notes l) AssertFail.
Proof. apply make_overflow. Qed.
Print Assumptions makenote_refuted.

Theorem stripnote_strips E l : strip_ok l -> sends E stripnote_pd (map strip_event l) (strip_spec (of_int 0) l).
Proof. apply strip_sends. Qed.
Print Assumptions stripnote_strips.
(** The velocity 0 of a list is forgotten. *)
Theorem stripnote_refuted E t1 t2 t3 p v p2 p3 : feqb v fzero = false ->
  let l := [(t1, NList p v); (t2, NList p2 fzero); (t3, NPitch p3)] in
  sends E stripnote_pd (map strip_event l) (note_msgs t1 p v ++ note_msgs t3 p3 v) /\ strip_spec (of_int 0) l = note_msgs t1 p v.
Proof. intros Hv. split; [apply strip_list_zero, Hv |]. cbn [strip_spec]. rewrite Hv. reflexivity. Qed.
Print Assumptions stripnote_refuted.

(** Concrete inputs. *)
Example env_48000 : whole_rate (e_sr (any_env 48000)) 48000 /\ whole_rate (e_sr (any_env 48000)) (1000 * 48).
Proof. assert (H : whole_rate (d_of_int 48000) 48000) by (split; apply d_of_int_exact; lia). split; exact H. Qed.
Example metro_example : sends (any_env 48000) (metro_pd (of_int 10)) (map metro_event [At 100 MBang; Next; At 600 (MPeriod (of_int 5)); Next; Next; At 1500 MZero; Next])
  [(100, 0%nat, [EB]); (580, 0%nat, [EB]); (1060, 0%nat, [EB]); (1300, 0%nat, [EB])].
Proof.
  pose proof (metro_ticks (any_env 48000) 48 (of_int 10) [At 100 MBang; Next; At 600 (MPeriod (of_int 5)); Next; Next; At 1500 MZero; Next]) as H.
  apply H; clear H; [apply env_48000 | lia | exists 10; split; [reflexivity | lia] |].
  repeat constructor. exists 5; split; [reflexivity | lia].
Qed.
Example until_example E : sends E until_pd (map until_event [(0, UNum (of_int 3)); (1, UNum fzero); (2, UStop); (4, UNum (of_int 1))])
  [(0, 0%nat, [EB]); (0, 0%nat, [EB]); (0, 0%nat, [EB]); (4, 0%nat, [EB])].
Proof. apply (until_counts E [(0, UNum (of_int 3)); (1, UNum fzero); (2, UStop); (4, UNum (of_int 1))]). repeat constructor; cbn; vm_compute; discriminate. Qed.
Example stripnote_example E p v : feqb v fzero = false ->
  sends E stripnote_pd (map strip_event [(0, NPitch p); (1, NVel v); (2, NPitch p); (3, NVel fzero); (4, NPitch p)]) (note_msgs 2 p v).
Proof.
  intros Hv. pose proof (stripnote_strips E [(0, NPitch p); (1, NVel v); (2, NPitch p); (3, NVel fzero); (4, NPitch p)]) as H.
  cbn [strip_spec] in H. rewrite Hv in H. apply H. repeat constructor.
Qed.
