(** Properties of the MIDI handling of the wrappers. *)
From Verif Require Import PatchProps PatchSpec3 PatchProofs4.
From Verif Require Import MidiSpec MidiProofs MidiProofs2 MidiProofs3 MidiProofs4 Float32Facts Float64Facts.
From Coq Require Import Lia Reals Lra.
From Flocq Require Import Core.
Open Scope Z_scope.

(** ** MIDI input of a plugin *)
(** Whatever the plugin reads behind the array, the channel messages of a block reach the receivers of notein, ctlin, ... in order, with
    the right elements. *)
Theorem plugin_midi_in : forall st sr events ms, (forall j, (j < 4)%nat -> behind st j <> None) ->
  Forall2 carries events ms -> Forall is_midi ms ->
  exists l, dpf_input st sr events = Ok l /\
    map (fun c => (c_recv c, c_vals c)) (filter (fun c => negb (for_receiver "__hv_midiin" c)) l) =
    map (fun m => (receiver (fst (received m)), map of_int (snd (received m)))) ms.
Proof.
  intros st sr events ms Hb Hc Hm. destruct (dpf_input_ok st sr events ms Hb Hc Hm) as (l & Hl & Hf). exists l. split; [exact Hl |].
  change (fun c => negb (for_receiver "__hv_midiin" c)) with not_raw. rewrite Hf, map_map. reflexivity.
Qed.
Print Assumptions plugin_midi_in.
(** A note on and a controller on channel 3 (counted from 0). *)
Example plugin_midi_in_case st sr : (forall j, (j < 4)%nat -> behind st j <> None) ->
  exists l, dpf_input st sr [mkEvent 7 [147; 60; 100; 0]; mkEvent 7 [179; 1; 64; 0]] = Ok l /\
    map (fun c => (c_recv c, c_vals c)) (filter (fun c => negb (for_receiver "__hv_midiin" c)) l) =
    [(receiver "__hv_notein", [of_int 60; of_int 100; of_int 3]); (receiver "__hv_ctlin", [of_int 64; of_int 1; of_int 3])].
Proof.
  intros Hb. apply (plugin_midi_in st sr _ [NoteOn 3 60 100; Control 3 1 64] Hb).
  - repeat constructor.
  - repeat constructor; unfold is_midi, data7; lia.
Qed.
(** The raw bytes for midiin are wrong: byte j comes from event j of the block, for every event of the block, so with fewer than four
    events the plugin reads behind the array. *)
Theorem plugin_raw_in_refuted :
  (forall x sr events, events <> [] -> (List.length events < 4)%nat -> dpf_input (mkStray (fun _ => None) x) sr events = UB) /\
  (forall st sr e0 e1 e2 e3 e l, let events := [e0; e1; e2; e3] in In e events -> (forall j, (j < 4)%nat -> behind st j <> None) ->
     dpf_event st sr events e = Ok l ->
     map (fun c => nth 0 (c_vals c) fzero) (filter (for_receiver "__hv_midiin") l) =
     map of_int [data_at e0 0; data_at e1 1; data_at e2 2; data_at e3 3]).
Proof.
  split; [exact raw_fault |]. intros st sr e0 e1 e2 e3 e l events Hin Hb H. rewrite (raw_of_event _ _ _ _ _ H Hb). reflexivity.
Qed.
Print Assumptions plugin_raw_in_refuted.
(** A realtime message reads an argument that was not passed. *)
Theorem plugin_realtime_in_refuted : forall b sr events e, In e events -> In (data_at e 0) [248; 250; 251; 252; 255] ->
  (forall j, (j < 4)%nat -> b j <> None) -> dpf_input (mkStray b None) sr events = UB.
Proof.
  intros b sr events e Hin Hrt Hb. destruct (dpf_input (mkStray b None) sr events) as [l | |] eqn:E; [| | reflexivity].
  - exfalso. apply (realtime_fault b sr events e Hin Hrt); [rewrite E; discriminate | exact Hb].
  - exfalso. apply (realtime_fault b sr events e Hin Hrt); [rewrite E; discriminate | exact Hb].
Qed.
Print Assumptions plugin_realtime_in_refuted.

(** ** When *)
(** Events of a block that share a frame are stamped with it, or with the frame before. *)
Theorem plugin_midi_time : forall st sr events l f, rate_within 1 1000000000 sr -> (forall e, In e events -> ev_frame e = f) -> 0 <= f <= 2 ^ 23 ->
  dpf_input st sr events = Ok l -> forall c start, In c l ->
  exists n, message_time sr start (c_ms c) = Ok (u32 (start + n)) /\ (n = f \/ n = f - 1) /\ 0 <= n.
Proof.
  intros st sr events l f Hsr Hf Hr H c start Hc. rewrite (dpf_times st sr events l c H Hc). unfold event_ms.
  destruct events as [| e events]; [injection H as <-; contradiction |]. rewrite (Hf e (or_introl eq_refl)).
  destruct (event_time sr start f Hsr Hr) as (n & Hn & Hn1 & Hn2). eauto.
Qed.
Print Assumptions plugin_midi_time.
(** Frame 5 at 44100 Hz; *)
Example plugin_midi_time_case : message_time (d_of_int 44100) 512 (event_ms (d_of_int 44100) [mkEvent 5 [144; 60; 100; 0]]) = Ok 517 /\
  rate_within 1 1000000000 (d_of_int 44100).
Proof. split; [vm_compute; reflexivity |]. destruct (d_of_int_exact 44100) as [E F]; [lia |]. split; [exact F |]. rewrite E. lra. Qed.
(** All messages of a block get the time of the first event, whatever their own frame. *)
Theorem plugin_midi_time_refuted : forall st sr e events l c, dpf_input st sr (e :: events) = Ok l -> In c l ->
  c_ms c = ddiv (dmul (d_of_int 1000) (d_of_int (ev_frame e))) sr.
Proof. intros st sr e events l c H Hc. exact (dpf_times st sr (e :: events) l c H Hc). Qed.
Print Assumptions plugin_midi_time_refuted.

(** ** MIDI output of plugins and Daisy firmware *)
(** Elements as noteout etc. send them become the bytes of the message; fractions are dropped, ports other than the first as well (polytouch of
    plugins apart). *)
Theorem midi_bytes_sent : forall w port m vals, is_midi m -> 0 <= port < 16 ->
  (w = DPF -> port = 0 \/ fst (sent_by port m) <> "__hv_polytouchout"%string) -> Forall2 stands_for vals (snd (sent_by port m)) ->
  midi_send w (receiver (fst (sent_by port m))) vals = Ok (Some (midi_bytes (normal m))).
Proof.
  intros w port m vals Hm Hp Hw Hv. apply midi_send_ok; try assumption; [lia |].
  destruct m; cbn [is_midi channel_of] in *; destruct Hm; lia.
Qed.
Print Assumptions midi_bytes_sent.
(** C sharp on channel 16 (15), port 2; velocity 0. *)
Example midi_bytes_case : midi_send DPF (receiver "__hv_noteout") [of_int 61; of_int 90; of_int 31] = Ok (Some [159; 61; 90]) /\
  midi_send Daisy (receiver "__hv_noteout") [of_int 61; of_int 0; of_int 0] = Ok (Some [128; 61; 0]).
Proof. split; vm_compute; reflexivity. Qed.
(** Polyphonic pressure on the second port leaves a plugin as a controller change. *)
Theorem polytouch_port_refuted : forall c k p, is_midi (PolyTouch c k p) ->
  midi_send DPF (receiver "__hv_polytouchout") (map of_int (snd (sent_by 1 (PolyTouch c k p)))) = Ok (Some (midi_bytes (Control c k p))).
Proof.
  intros c k p (Hc & Hk & Hp). unfold data7 in *. apply polytouch_port; unfold data7; try lia; try (apply whole_stands; lia).
Qed.
Print Assumptions polytouch_port_refuted.
(** Values are not limited: from 128 on the bytes are not data bytes, from 256 on and below 0 the conversion is undefined. *)
Theorem midi_range_refuted : forall w,
  (forall z x c, 128 <= z < 256 -> 1 <= x < 128 -> 0 <= c < 16 ->
     midi_send w (receiver "__hv_noteout") (map of_int [z; x; c]) = Ok (Some [144 + c; z; x])) /\
  (forall z x c, z < 0 \/ 256 <= z -> Z.abs z <= 2 ^ 24 -> midi_send w (receiver "__hv_noteout") [of_int z; x; c] = UB).
Proof.
  intros w. split.
  - intros z x c Hz Hx Hc.
    change (midi_send w (receiver "__hv_noteout") (map of_int [z; x; c])) with
      (let! note := to_u8 (of_int z) in let! velocity := to_u8 (of_int x) in let! ch := to_u8 (of_int c) in
       Ok (Some [if 0 <? velocity then Z.lor 144 (ch mod 16) else Z.lor 128 (ch mod 16); note; velocity])).
    unfold to_u8. rewrite (u_of 256 (of_int z) z (whole_stands z ltac:(lia)) ltac:(lia)). cbn [obind].
    rewrite (u_of 256 (of_int x) x (whole_stands x ltac:(lia)) ltac:(lia)). cbn [obind].
    rewrite (u_of 256 (of_int c) c (whole_stands c ltac:(lia)) ltac:(lia)). cbn [obind].
    rewrite (proj2 (Z.ltb_lt 0 x)) by lia. rewrite Z.mod_small by lia.
    destruct (command_bits 144 c ltac:(cbn; tauto) Hc) as (_ & _ & -> & _). reflexivity.
  - intros z x c Hz Ha.
    change (midi_send w (receiver "__hv_noteout") [of_int z; x; c]) with
      (let! note := to_u8 (of_int z) in let! velocity := to_u8 x in let! ch := to_u8 c in
       Ok (Some [if 0 <? velocity then Z.lor 144 (ch mod 16) else Z.lor 128 (ch mod 16); note; velocity])).
    unfold to_u8 at 1. rewrite (u_of_bad 256 (of_int z) z (whole_stands z ltac:(lia)) ltac:(lia)). reflexivity.
Qed.
Print Assumptions midi_range_refuted.
(** Numbers at the inlets of noteout (channel argument [k]) leave the device as notes. *)
Definition note_inlet (e : Z * note_in) : event :=
  match e with (t, NKey k) => In_ t 0 [whole k] | (t, NVelocity v) => In_ t 1 [whole v] | (t, NChannel c) => In_ t 2 [whole c] end.
Theorem notes_reach_device : forall E w k l, 1 <= k <= 16 -> Forall (fun e => note_in_ok (snd e)) l ->
  exists outs, sends E (noteout_pd (of_int k)) (map note_inlet l) outs /\
    Forall2 (fun o m => exists vals, snd o = map EF vals /\ midi_send w (receiver "__hv_noteout") vals = Ok (Some (midi_bytes (normal m))))
      outs (notes_played 0 k l).
Proof.
  intros E w k l Hk Hl.
  pose (tr := fun e : Z * note_in => match e with (t, NKey k) => (t, OVal (of_int k)) | (t, NVelocity v) => (t, OSecond (of_int v)) | (t, NChannel c) => (t, OChan c) end).
  exists (out3_spec (of_int 0) k (map tr l)). split.
  - replace (map note_inlet l) with (map out3_event (map tr l)).
    2: { rewrite map_map. apply map_ext. intros [t []]; reflexivity. }
    apply (midi_notes_sent E k (map tr l)); [lia |]. apply Forall_forall. intros x Hx. apply in_map_iff in Hx as ([t e] & <- & Hin).
    rewrite Forall_forall in Hl. specialize (Hl _ Hin). destruct e; cbn in *; try exact Logic.I. lia.
  - assert (H : forall v c, 0 <= v < 128 -> 1 <= c <= 16 -> Forall2 (fun o m => exists vals, snd o = map EF vals /\
                  midi_send w (receiver "__hv_noteout") vals = Ok (Some (midi_bytes (normal m)))) (out3_spec (of_int v) c (map tr l)) (notes_played v c l)).
    { induction Hl as [| [t e] l He Hl IH]; intros v c Hv Hc; [constructor |].
      destruct e as [key | v' | c']; cbn [snd note_in_ok] in He; unfold data7 in He; cbn [map tr out3_spec notes_played]; [| apply IH; lia | apply IH; lia].
      constructor; [| apply IH; lia]. exists [of_int key; of_int v; of_int (Z.max (c - 1) 0)]. split; [reflexivity |].
      replace (Z.max (c - 1) 0) with (c - 1 + 16 * 0) by lia.
      apply (midi_bytes_sent w 0 (NoteOn (c - 1) key v)); [cbn [is_midi]; unfold data7; lia | lia | right; discriminate |].
      cbn [sent_by snd]. repeat constructor; apply whole_stands; lia. }
    apply H; lia.
Qed.
Print Assumptions notes_reach_device.
Example notes_reach_device_case E : exists o, sends E (noteout_pd (of_int 2)) [In_ 0 1 [whole 100]; In_ 5 0 [whole 60]] [o] /\
  exists vals, snd o = map EF vals /\ midi_send Daisy (receiver "__hv_noteout") vals = Ok (Some [145; 60; 100]).
Proof.
  destruct (notes_reach_device E Daisy 2 [(0, NVelocity 100); (5, NKey 60)]) as (outs & H1 & H2); [lia | repeat constructor; unfold note_in_ok, data7; lia |].
  cbn [notes_played] in H2. inversion H2 as [| o m outs' ms Ho Hos]; subst. inversion Hos; subst. exists o. split; [exact H1 | exact Ho].
Qed.
(** Raw bytes: the counter of the plugin is not initialised; from 0 on they leave in groups of four, whatever the messages. *)
Theorem raw_out_refuted :
  (forall data m ms, midi_out_all None data (m :: ms) = UB) /\
  (forall zs, Forall (fun z => 0 <= z < 256) zs -> midi_out_all (Some 0) [] (map (fun z => [of_int z]) zs) = Ok (fours zs)) /\
  fours (midi_bytes (NoteOn 0 60 100)) = [] /\
  fours (midi_bytes (NoteOn 0 60 100) ++ midi_bytes (NoteOn 0 60 0)) = [[144; 60; 100; 144]].
Proof.
  split; [reflexivity |]. split; [| split; reflexivity]. intros zs Hz.
  replace (map (fun z => [of_int z]) zs) with (map (fun x : f32 => [x]) (map of_int zs)) by (rewrite map_map; reflexivity).
  apply (midi_out_fours (List.length zs)); [lia | | exact Hz].
  induction Hz as [| z zs H Hz IH]; constructor; [apply whole_stands; lia | exact IH].
Qed.
Print Assumptions raw_out_refuted.

(** ** Web pages *)
Theorem page_midi_in : forall m, is_midi m ->
  filter (fun c => negb (for_receiver "__hv_midiin" c)) (js_input (midi_bytes m)) =
  [mkCall (receiver (fst (received m))) dzero (map of_int (snd (received m)))].
Proof. exact js_input_ok. Qed.
Print Assumptions page_midi_in.
Theorem page_midi_out : forall port m, is_midi m -> 0 <= port < 1024 ->
  js_send (T (fst (sent_by port m))) (map of_int (snd (sent_by port m))) = Ok (map of_int (midi_bytes (normal m))).
Proof. exact js_send_ok. Qed.
Print Assumptions page_midi_out.
Example page_case : is_midi (Bend 2 8192) /\ js_input [226; 0; 64] =
  [mkCall (receiver "__hv_midiin") dzero [of_int 0; of_int 2]; mkCall (receiver "__hv_midiin") dzero [of_int 64; of_int 2];
   mkCall (receiver "__hv_bendin") dzero [of_int 8192; of_int 2]] /\
  js_send (T "__hv_bendout") [of_int 8192; of_int 2] = Ok (map of_int [226; 0; 64]).
Proof.
  split; [cbn; lia |]. split; [reflexivity |]. change [226; 0; 64] with (midi_bytes (normal (Bend 2 8192))).
  exact (page_midi_out 0 (Bend 2 8192) ltac:(cbn; lia) ltac:(lia)).
Qed.
(** midiin never gets the status byte, but a third byte even if there is none; midiout stops at a message of one byte. *)
Theorem page_raw_refuted :
  (forall m, is_midi m -> map (fun c => nth 0 (c_vals c) fzero) (filter (for_receiver "__hv_midiin") (js_input (midi_bytes m))) =
     [of_int (nth 1 (midi_bytes m) 0); match m with Program _ _ | Touch _ _ => B754_nan | _ => of_int (nth 2 (midi_bytes m) 0) end]) /\
  (forall x, js_send (T "__hv_midiout") [x] = AssertFail).
Proof.
  split; [| reflexivity]. intros m Hm. rewrite (js_raw m Hm). destruct m; reflexivity.
Qed.
Print Assumptions page_raw_refuted.

(** Real time messages (clock, start, continue, stop, active sensing, reset) reach midirealtimein; the other system messages nothing but
    midiin. The second element, which the page does not pass, is not a number. *)
Theorem page_real_time : forall s data, 240 <= s < 256 ->
  filter (fun c => negb (for_receiver "__hv_midiin" c)) (js_input (s :: data)) =
  match s with
  | 248 | 250 | 251 | 252 | 254 | 255 => [mkCall (receiver "__hv_midirealtimein") dzero [of_int s; B754_nan]]
  | _ => []
  end.
Proof.
  intros s data Hs.
  assert (In s (map (fun i => 240 + Z.of_nat i) (seq 0 16))) as Hin.
  { apply in_map_iff. exists (Z.to_nat (s - 240)). split; [lia |]. apply in_seq. lia. }
  cbn in Hin. unfold js_input. cbn [nth_error].
  repeat (destruct Hin as [<- | Hin]; [reflexivity |]). contradiction.
Qed.
Print Assumptions page_real_time.
Example page_real_time_case : nth 2 (js_input [250]) (mkCall 0 dzero []) = mkCall (receiver "__hv_midirealtimein") dzero [of_int 250; B754_nan].
Proof. reflexivity. Qed.
(** The bytes of a message given to midiout as one list leave the page unchanged, unless it is a program change or a channel pressure on
    a channel other than the first. *)
Theorem page_raw_list : forall m, is_midi m ->
  js_send (T "__hv_midiout") (map of_int (midi_bytes m)) =
  match m with
  | Program c _ | Touch c _ => if c =? 0 then Ok (map of_int (midi_bytes m)) else AssertFail
  | _ => Ok (map of_int (midi_bytes m))
  end.
Proof.
  intros m Hm.
  assert (H : forall b b1 r, js_send (T "__hv_midiout") (b :: b1 :: r) =
              if (feqb b (of_int 192) || feqb b (of_int 208))%bool then Ok [b; b1] else match r with b2 :: _ => Ok [b; b1; b2] | [] => AssertFail end).
  { intros b b1 [| b2 r]; reflexivity. }
  destruct m as [c a b | c a b | c a b | c a b | c a | c a | c v]; cbn [is_midi] in Hm; unfold data7 in Hm; cbn [midi_bytes map]; rewrite H;
    rewrite !of_int_feqb by lia.
  all: try (rewrite (proj2 (Z.eqb_neq _ 192)), (proj2 (Z.eqb_neq _ 208)) by lia; reflexivity).
  - destruct (Z.eqb_spec c 0) as [-> | Hc]; [reflexivity |]. rewrite (proj2 (Z.eqb_neq _ 192)), (proj2 (Z.eqb_neq _ 208)) by lia. reflexivity.
  - destruct (Z.eqb_spec c 0) as [-> | Hc]; [reflexivity |]. rewrite (proj2 (Z.eqb_neq _ 192)), (proj2 (Z.eqb_neq _ 208)) by lia. reflexivity.
Qed.
Print Assumptions page_raw_list.
Example page_raw_list_case : is_midi (Program 0 5) /\ is_midi (Program 1 5) /\ js_send (T "__hv_midiout") (map of_int [192; 5]) = Ok (map of_int [192; 5]).
Proof. split; [cbn; unfold data7; lia |]. split; [cbn; unfold data7; lia |]. exact (page_raw_list (Program 0 5) ltac:(cbn; unfold data7; lia)). Qed.

(** ** The transport of the host *)
(** Start, continue and stop follow the host, whatever the history, and alternate; a reset is sent in every block that plays from frame 0. *)
Theorem transport_follows_host : forall fuel sr l t r, host_blocks fuel sr transport_init l = Some (t, r) ->
  flat_map transport_of (List.concat r) = changes false l /\ alternate false (changes false l) /\
  Forall2 (fun e cs => existsb (status_is 255) cs = (playing (fst e) && (frame (fst e) =? 0))%bool) l r.
Proof.
  intros fuel sr l t r H. destruct (host_blocks_ok fuel sr l _ _ _ H) as [H1 H2]. split; [exact H1 |]. split; [apply changes_alternate | exact H2].
Qed.
Print Assumptions transport_follows_host.
(** Stopped, playing from 0, from 512, stopped, playing from 512. *)
Example transport_case : exists t r, host_blocks 5 (d_of_int 44100) transport_init
    (map (fun e => (mkPos (fst e) (snd e) false dzero, 512)) [(false, 0); (true, 0); (true, 512); (false, 1024); (true, 512)]) = Some (t, r) /\
  flat_map transport_of (List.concat r) = [Start; Stop; Continue].
Proof. eexists. eexists. split; [reflexivity |]. vm_compute. reflexivity. Qed.

(** ** The clock *)
(** At a constant tempo all ticks come, in their blocks, at the right time up to 1.01 samples and a drift of 1/7000000. *)
Theorem clock_keeps_time : forall sr tempo ps, rate_within 1 1000000000 sr -> (0 < B2R tempo)%R ->
  let every := tick_every (B2R sr) (B2R tempo) in (1 <= every <= 1000000000)%R ->
  Forall (fun e => playing (fst e) = true /\ bbt_valid (fst e) = true /\ bpm (fst e) = tempo /\ 1 <= snd e <= 2 ^ 23) ps ->
  sumZ (map snd ps) <= 2 ^ 50 -> (IZR (sumZ (map snd ps)) <= 33554432 * every)%R ->
  exists fuel t r, host_blocks fuel sr transport_init ps = Some (t, r) /\ clock_right sr every 0 0 (map snd ps) (map (filter (status_is 248)) r).
Proof.
  intros sr tempo ps Hsr Pt every He Hps Hs Hs2. exists (Z.to_nat (2 ^ 26)).
  apply (blocks_ok sr tempo Hsr Pt He (Z.to_nat (2 ^ 26)) ps Hps ltac:(rewrite Z2Nat.id; lia) 0 O false dzero eq_refl eq_refl); try lia.
  - cbn [tick Nat.iter]. change (R64 (tick sr tempo 0)) with 0%R. lra.
  - exact Hs2.
Qed.
Print Assumptions clock_keeps_time.
(** 44100 Hz, 120 beats per minute: a tick every 918.75 samples; two blocks of 512 samples. *)
Example clock_case : exists fuel t r, host_blocks fuel (d_of_int 44100) transport_init
    [(mkPos true 0 true (d_of_int 120), 512); (mkPos true 512 true (d_of_int 120), 512)] = Some (t, r) /\
  clock_right (d_of_int 44100) 918.75 0 0 [512; 512] (map (filter (status_is 248)) r).
Proof.
  destruct (d_of_int_exact 44100) as [E F]; [lia |]. destruct (d_of_int_exact 120) as [E2 F2]; [lia |].
  assert (Q : tick_every (B2R (d_of_int 44100)) (B2R (d_of_int 120)) = 918.75%R) by (rewrite E, E2; unfold tick_every; lra).
  pose proof (clock_keeps_time (d_of_int 44100) (d_of_int 120)
    [(mkPos true 0 true (d_of_int 120), 512); (mkPos true 512 true (d_of_int 120), 512)]) as H. cbv zeta in H. rewrite Q in H.
  apply H; clear H.
  - split; [exact F |]. rewrite E. lra.
  - rewrite E2. lra.
  - lra.
  - repeat constructor; cbn [fst snd playing bbt_valid bpm]; lia.
  - cbn. lia.
  - cbn. lra.
Qed.
(** It does not keep time when the tempo is 0 for a block: no tick comes any more, whatever the tempo then; and an infinite tempo, or one that leaves
    no time between ticks, never lets go of the audio thread. *)
Theorem clock_tempo_refuted : forall sr, rate_within 1 1000000000 sr ->
  (forall fuel n ps, 1 <= n <= 2 ^ 23 ->
     exists t c r, host_blocks (S fuel) sr transport_init ((mkPos true 0 true dzero, n) :: ps) = Some (t, c :: r) /\
       filter (status_is 248) (List.concat r) = []) /\
  (forall fuel n, 1 <= n <= 2 ^ 23 -> host_transport fuel sr transport_init (mkPos true 0 true (B754_infinity false)) n = None).
Proof. intros sr H. split; [exact (zero_tempo sr H) | exact (endless sr H)]. Qed.
Print Assumptions clock_tempo_refuted.
(** The clock is not reset with the start: playing again from frame 0, the first tick does not come with the start. *)
Theorem clock_phase_refuted :
  let at_ := mkPos true 0 true (d_of_int 120) in let off := mkPos false 0 true (d_of_int 120) in
  exists t c0 c1 c2, host_blocks 9 (d_of_int 44100) transport_init [(at_, 512); (off, 512); (at_, 512)] = Some (t, [c0; c1; c2]) /\
    flat_map transport_of c0 = [Start] /\ flat_map transport_of c2 = [Start] /\
    existsb (fun c => status_is 248 c && dleb (c_ms c) dzero) c0 = true /\
    existsb (fun c => status_is 248 c && dleb (c_ms c) dzero) c2 = false.
Proof.
  cbv zeta. destruct phase as (t & c0 & c1 & c2 & H & Q). exists t, c0, c1, c2. split; [exact H |]. unfold on_time in Q.
  apply pair_equal_spec in Q as [Q Q4]. apply pair_equal_spec in Q as [Q Q3]. apply pair_equal_spec in Q as [Q1 Q2]. auto.
Qed.
Print Assumptions clock_phase_refuted.

(** ** print *)
(** The Daisy and OWL firmware shows label (at most 48 bytes) and message, if the message is shorter than 63 bytes less the label; *)
Theorem device_print : forall label message, proper label -> proper message -> (List.length message < 63 - Nat.min (List.length label) 48)%nat ->
  daisy_print label message = Ok (firstn 48 label ++ T " " ++ message).
Proof. exact daisy_print_ok. Qed.
Print Assumptions device_print.
Example device_print_case : daisy_print (T "print") (T "bang") = Ok (T "print bang").
Proof. reflexivity. Qed.
(** with a longer one it reads behind the buffer; a plugin does as well, and loses the label. *)
Theorem print_refuted :
  (forall label message, proper label -> proper message -> (63 - Nat.min (List.length label) 48 <= List.length message)%nat ->
     daisy_print label message = UB /\ dpf_print label message = UB) /\
  (forall label message, proper label -> proper message -> (List.length message < 63 - Nat.min (List.length label) 48)%nat ->
     dpf_print label message = Ok message).
Proof.
  split; [intros; split; [apply daisy_print_long | apply dpf_print_long]; assumption | exact dpf_print_ok].
Qed.
Print Assumptions print_refuted.
