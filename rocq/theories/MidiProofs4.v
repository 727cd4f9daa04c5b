(** Where the clock of a plugin fails. *)
From Verif Require Import MidiSpec Float32Facts Float64Facts TimeProofs TimeProofs2 MidiProofs MidiProofs2 MidiProofs3.
From Coq Require Import Lia Reals Lra.
From Flocq Require Import Core.
Open Scope Z_scope.

Definition dinf : f64 := B754_infinity false.
Lemma beat_finite sr : rate_within 1 1000000000 sr -> exists m e H, dmul (d_of_int 60) sr = B754_finite false m e H.
Proof.
  intros [Fs Bs]. destruct (d_of_int_exact 60) as [E60 F60]; [lia |].
  assert (P1 : (0 <= R64 (d_of_int 60) * R64 sr <= bpow radix2 40)%R) by (rewrite E60; replace (bpow radix2 40) with 1099511627776%R by reflexivity; lra).
  destruct (dmul_R _ sr 40 F60 Fs P1 ltac:(lia)) as [E1 F1]. rewrite E60 in E1.
  assert (N : near (bpow radix2 (-53)) (60 * R64 sr) (R64 (dmul (d_of_int 60) sr))) by (rewrite E1; apply round64_near, small; lra).
  unfold near in N. rewrite bp53 in N.
  assert (Q : (1 <= R64 (dmul (d_of_int 60) sr))%R) by lra.
  destruct (dmul (d_of_int 60) sr) as [s | s | | s m e H]; try discriminate F1.
  - change (R64 (B754_zero s)) with 0%R in Q. lra.
  - destruct s; [| exists m, e, H; reflexivity].
    exfalso. assert (L : (R64 (B754_finite true m e H) <= 0)%R); [| lra].
    apply F2R_le_0. cbn. lia.
Qed.
Lemma spt_zero_tempo sr : rate_within 1 1000000000 sr -> samples_per_tick sr dzero = B754_infinity false.
Proof.
  intros H. destruct (beat_finite sr H) as (m & e & Hb & E). unfold samples_per_tick. rewrite E. reflexivity.
Qed.
Lemma spt_inf_tempo sr : rate_within 1 1000000000 sr -> samples_per_tick sr dinf = B754_zero false.
Proof.
  intros H. destruct (beat_finite sr H) as (m & e & Hb & E). unfold samples_per_tick. rewrite E. reflexivity.
Qed.
Lemma stop_after n : 1 <= n <= 2 ^ 23 -> dltb dzero (dadd dzero (d_of_int n)) = true /\ is_finite (dadd dzero (d_of_int n)) = true.
Proof.
  intros Hn. destruct (d_of_int_exact n) as [E F]; [lia |]. assert (1 <= IZR n <= 8388608)%R by (split; apply IZR_le; lia).
  destruct (dadd_R dzero (d_of_int n) 40 eq_refl F) as [E1 F1]; [rewrite E; change (R64 dzero) with 0%R; replace (bpow radix2 40) with 1099511627776%R by reflexivity; lra | lia |].
  split; [| exact F1]. rewrite dltb_R by (reflexivity || exact F1). rewrite E1, E. change (R64 dzero) with 0%R. rewrite Rplus_0_l.
  rewrite round64_id by (apply fmt64_int; lia). apply Rlt_bool_true. lra.
Qed.
Lemma inf_no_ticks sr spt start stop fuel : tick_loop sr spt start stop fuel dinf = Some (dinf, []).
Proof.
  assert (H : dltb dinf stop = false) by (destruct stop as [s | [|] | | s m e Hb]; try reflexivity; destruct s; reflexivity).
  destruct fuel; cbn [tick_loop]; rewrite H; reflexivity.
Qed.
Lemma inf_transport fuel sr was cd p n : exists cd', host_transport fuel sr (mkTransport was dinf cd) p n =
  Some (mkTransport (playing p) dinf cd', transport_events was p).
Proof.
  unfold host_transport. cbn [was_playing next_tick cycle_start]. destruct (playing p && bbt_valid p)%bool; [| eauto].
  destruct (_ && _ && _)%bool; [rewrite inf_no_ticks, app_nil_r |]; eauto.
Qed.
Lemma inf_blocks fuel sr : forall l was cd, exists t r, host_blocks fuel sr (mkTransport was dinf cd) l = Some (t, r) /\ clocks (List.concat r) = [].
Proof.
  induction l as [| [p n] l IH]; intros was cd; [do 2 eexists; split; reflexivity |]. cbn [host_blocks].
  destruct (inf_transport fuel sr was cd p n) as [cd' ->]. destruct (IH (playing p) cd') as (t & r & -> & Hr).
  do 2 eexists. split; [reflexivity |]. cbn [List.concat]. unfold clocks in *. rewrite filter_app, Hr, app_nil_r. exact (transport_no_clock was p).
Qed.
Lemma zero_tempo sr : rate_within 1 1000000000 sr -> forall fuel n l, 1 <= n <= 2 ^ 23 ->
  exists t c r, host_blocks (S fuel) sr transport_init ((mkPos true 0 true dzero, n) :: l) = Some (t, c :: r) /\ clocks (List.concat r) = [].
Proof.
  intros Hsr fuel n l Hn. cbn [host_blocks]. unfold host_transport, transport_init. cbn [was_playing next_tick cycle_start playing bbt_valid bpm andb].
  rewrite (spt_zero_tempo sr Hsr). destruct (stop_after n Hn) as [H1 _].
  change (dleb dzero dzero) with true. rewrite H1. cbn [andb]. cbn [tick_loop]. rewrite H1.
  change (dadd dzero (widen (B754_infinity false))) with dinf. rewrite inf_no_ticks.
  destruct (inf_blocks (S fuel) sr l true (dadd dzero (d_of_int n))) as (t & r & -> & Hr).
  do 3 eexists. split; [reflexivity | exact Hr].
Qed.
Lemma endless sr : rate_within 1 1000000000 sr -> forall fuel n, 1 <= n <= 2 ^ 23 ->
  host_transport fuel sr transport_init (mkPos true 0 true dinf) n = None.
Proof.
  intros Hsr fuel n Hn. unfold host_transport, transport_init. cbn [was_playing next_tick cycle_start playing bbt_valid bpm andb].
  rewrite (spt_inf_tempo sr Hsr). destruct (stop_after n Hn) as [H1 _].
  change (dleb dzero dzero) with true. rewrite H1. cbn [andb].
  assert (L : forall fuel, tick_loop sr (B754_zero false) dzero (dadd dzero (d_of_int n)) fuel dzero = None).
  { intros f. induction f as [| f IH]; cbn [tick_loop]; rewrite H1; [reflexivity |].
    change (dadd dzero (widen (B754_zero false))) with dzero. rewrite IH. reflexivity. }
  rewrite L. reflexivity.
Qed.
Definition on_time (l : list call) : bool := existsb (fun c => status_is 248 c && dleb (c_ms c) dzero) l.
Lemma phase : let at_ := mkPos true 0 true (d_of_int 120) in let off := mkPos false 0 true (d_of_int 120) in
  exists t c0 c1 c2, host_blocks 9 (d_of_int 44100) transport_init [(at_, 512); (off, 512); (at_, 512)] = Some (t, [c0; c1; c2]) /\
    (flat_map transport_of c0, flat_map transport_of c2, on_time c0, on_time c2) = ([Start], [Start], true, false).
Proof.
  cbv zeta.
  remember (host_blocks 9 (d_of_int 44100) transport_init [(mkPos true 0 true (d_of_int 120), 512); (mkPos false 0 true (d_of_int 120), 512); (mkPos true 0 true (d_of_int 120), 512)]) as o eqn:Eo.
  assert (H : match o with
              | Some (t, [c0; c1; c2]) => (flat_map transport_of c0, flat_map transport_of c2, on_time c0, on_time c2) = ([Start], [Start], true, false)
              | _ => False
              end).
  { subst o. vm_compute. reflexivity. }
  clear Eo. destruct o as [[t [| c0 [| c1 [| c2 [| c3 r]]]]] |]; try contradiction. exists t, c0, c1, c2. split; [reflexivity | exact H].
Qed.
