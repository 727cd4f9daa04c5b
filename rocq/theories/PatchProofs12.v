(** Where the patches depart from Pd. *)
From Verif Require Import PatchProofs PatchProofs2 PatchProofs3 PatchProofs4 PatchProofs5 PatchProofs6 PatchProofs7 PatchProofs8 PatchProofs9 PatchProofs10 PatchProofs11 PatchSpec3 Float32Facts.
From Coq Require Import Lia.
Open Scope Z_scope.

(** ctlin without arguments, controller 0: the channel appears at the outlet of the controller. *)
Lemma ctlin_zero E t x c : 0 <= c < 2 ^ 24 ->
  sends E (ctlin_pd (of_int 0) (of_int 0)) [ctl_event (t, (x, 0, c))]
    [(t, 2%nat, [whole (c + 1)]); (t, 1%nat, [whole 0]); (t, 1%nat, [whole (c + 1)]); (t, O, [EF x])].
Proof.
  intros Hc. destruct (ctlin_load E 0 0 ltac:(lia) ltac:(lia)) as (b1 & b2 & m1 & m2 & Hl).
  destruct (channel_facts 0 c ltac:(lia) Hc) as (Hadd & Hmax & Hch). rewrite (proj2 (Z.eqb_neq (c + 1) 0)) in Hch by lia.
  pose proof (of_int_feqb 0 0 ltac:(lia) ltac:(lia)) as Hcc. rewrite Z.eqb_refl in Hcc.
  eapply sends_loaded; [exact Hl | apply plays_one; unfold ctlin_nodes; norm; run ltac:(first [rewrite Hadd | rewrite Hmax | rewrite Hcc | rewrite Hch | consts]) | reflexivity].
Qed.
(** ctlin 0 K: all controllers of all channels. *)
Lemma ctlin_zero_channel E K t x n c : 1 <= K <= 2 ^ 24 -> 1 <= n < 2 ^ 24 -> 0 <= c < 2 ^ 24 -> c + 1 <> K ->
  sends E (ctlin_pd (of_int 0) (of_int K)) [ctl_event (t, (x, n, c))]
    [(t, 2%nat, [whole (c + 1)]); (t, 1%nat, [whole n]); (t, O, [EF x])].
Proof.
  intros HK Hn Hc N. destruct (ctlin_load E 0 K ltac:(lia) ltac:(lia)) as (b1 & b2 & m1 & m2 & Hl).
  destruct (channel_facts K c ltac:(lia) Hc) as (Hadd & Hmax & Hch). rewrite (proj2 (Z.eqb_neq (c + 1) K)) in Hch by lia.
  pose proof (of_int_feqb n 0 ltac:(lia) ltac:(lia)) as Hcc. rewrite (proj2 (Z.eqb_neq n 0)) in Hcc by lia.
  rewrite (proj2 (Z.eqb_neq K 0)) in Hl by lia.
  eapply sends_loaded; [exact Hl | apply plays_one; unfold ctlin_nodes; norm; run ltac:(first [rewrite Hadd | rewrite Hmax | rewrite Hcc | rewrite Hch | consts]) | reflexivity].
Qed.
(** A list at the left inlet of noteout: the third number is sent as it is. *)
Lemma noteout_list E K t p v c : 0 <= K <= 2 ^ 24 ->
  sends E (noteout_pd (of_int K)) [In_ t 0 [EF p; EF v; whole c]] [(t, O, [EF p; EF v; whole c])].
Proof.
  intros HK. pose proof (midi_chan K HK) as Hc. revert Hc. generalize (Z.max (K - 1) 0). intros z Hc. norm_in Hc.
  eapply sends_loaded; [norm; run ltac:(rewrite Hc) | apply plays_one; norm; run idtac | reflexivity].
Qed.
(** A list at the left inlet of bendout: the channel is added to the value. *)
Lemma bendout_list E K t x c : 0 <= K <= 2 ^ 24 ->
  sends E (bendout_pd (of_int K)) [In_ t 0 [EF x; EF c]] [(t, O, [EF (fadd x c); midi_channel K])].
Proof.
  intros HK. pose proof (midi_chan K HK) as Hc. unfold midi_channel. revert Hc. generalize (Z.max (K - 1) 0). intros z Hc. norm_in Hc.
  eapply sends_loaded; [norm; run ltac:(rewrite Hc) | apply plays_one; norm; run idtac | reflexivity].
Qed.
(** metro *)
Definition any_env (r : Z) : env := mkEnv (fun _ x => x) (fun x _ => x) (fun x _ => x) 2143289344 (d_of_int r).
Lemma metro_90 E t : e_sr E = d_of_int 44100 ->
  sends E (metro_pd (of_int 90)) (map metro_event [At t MBang; Next; Next]) [(t, O, [EB]); (t + 3968, O, [EB]); (t + 3968 + 3968, O, [EB])].
Proof.
  intros Hr. apply (metro_sends E (fun _ => 3968)); [| repeat constructor].
  unfold metro_period, metro_rate. rewrite Hr. vm_compute. reflexivity.
Qed.
Lemma metro_minus_zero E samples k t : metro_period E k = Ok (samples k) ->
  sends E (metro_pd k) [In_ t 0 [EF (B754_zero true)]] [(t, O, [EB])].
Proof.
  intros Hk. apply (metro_sends E samples k [At t (MNum (B754_zero true))] Hk). constructor; [| constructor].
  repeat constructor; vm_compute; discriminate.
Qed.
Lemma timer_stuck E : e_sr E = d_of_int 48000 ->
  sends E timer_pd (map timer_event [(16777216, TStart); (16777217, TAsk)]) [(16777217, O, [EF fzero])].
Proof.
  intros Hr. pose proof (timer_sends E) as H.
  assert (Hz : feqb (metro_rate E) fzero = false) by (unfold metro_rate; rewrite Hr; vm_compute; reflexivity).
  specialize (H [(16777216, TStart); (16777217, TAsk)] Hz). cbn [timer_spec] in H.
  replace (timer_value E 16777216 16777217) with fzero in H; [exact H |].
  unfold timer_value, metro_rate. rewrite Hr. vm_compute. reflexivity.
Qed.
(** A number with the encoding of the hash of "set". *)
Definition set_number : f32 := fdyadic 8408491 (-26).
Lemma set_bits nan : float_bits nan set_number = hv_string_to_hash (T "set").
Proof. vm_compute. reflexivity. Qed.
Lemma change_set_number E k t : sends E (change_pd k) [change_event (t, CFloat set_number)] [].
Proof.
  assert (Hsw : switch_outlet E change_cases [EF set_number] = Ok 1%nat).
  { unfold switch_outlet. cbn [elem_hash]. rewrite set_bits. vm_compute. reflexivity. }
  cbn [change_event]. revert Hsw. generalize set_number. intros x Hsw. norm_in Hsw.
  eapply sends_of; [reflexivity | apply plays_one; norm; run ltac:(first [rewrite Hsw | consts]) | reflexivity].
Qed.
