(** MIDI bytes in and out. *)
From Verif Require Import MidiSpec Float32Facts.
From Coq Require Import Lia Reals.
From Flocq Require Import Core.
Open Scope Z_scope.

Lemma enum (f : Z -> bool) n : forallb f (map Z.of_nat (seq 0 n)) = true -> forall c, 0 <= c < Z.of_nat n -> f c = true.
Proof.
  intros H c Hc. rewrite forallb_forall in H. apply H. apply in_map_iff. exists (Z.to_nat c). split; [lia |]. apply in_seq. lia.
Qed.
(** [k]: a multiple of 16 *)
Lemma command_bits k c : In k [128; 144; 160; 176; 192; 208; 224] -> 0 <= c < 16 -> Z.land (k + c) 240 = k /\ Z.land (k + c) 15 = c /\ Z.lor k c = k + c /\
  existsb (Z.eqb (k + c)) mrt_set = false /\ existsb (Z.eqb (k + c)) js_realtime = false.
Proof.
  intros Hk Hc.
  pose proof (enum (fun c => forallb (fun k => (Z.land (k + c) 240 =? k) && (Z.land (k + c) 15 =? c) && (Z.lor k c =? k + c) &&
                                           negb (existsb (Z.eqb (k + c)) mrt_set) && negb (existsb (Z.eqb (k + c)) js_realtime)) [128; 144; 160; 176; 192; 208; 224])
                16 ltac:(vm_compute; reflexivity) c Hc) as H.
  cbv beta in H. rewrite forallb_forall in H. specialize (H k Hk). cbv beta in H.
  apply andb_prop in H as [H H5]. apply andb_prop in H as [H H4]. apply andb_prop in H as [H H3]. apply andb_prop in H as [H1 H2].
  apply Z.eqb_eq in H1, H2, H3. apply Bool.negb_true_iff in H4, H5. auto.
Qed.
Lemma bend_in v : 0 <= v < 16384 -> Z.lor (Z.shiftl (v / 128) 7) (v mod 128) = v.
Proof.
  intros Hv. assert (D : Z.land (Z.shiftl (v / 128) 7) (v mod 128) = 0).
  { apply Z.bits_inj'. intros i Hi. rewrite Z.land_spec, Z.bits_0. change 128 with (2 ^ 7).
    destruct (Z_lt_le_dec i 7).
    - rewrite Z.shiftl_spec_low by lia. reflexivity.
    - rewrite Z.mod_pow2_bits_high by lia. apply Bool.andb_false_r. }
  rewrite <- Z.lxor_lor by exact D. rewrite <- Z.add_nocarry_lxor by exact D. rewrite Z.shiftl_mul_pow2 by lia.
  change (2 ^ 7) with 128. pose proof (Z.div_mod v 128). lia.
Qed.
Lemma bend_out v : 0 <= v < 16384 -> Z.land v 127 = v mod 128 /\ Z.land (Z.shiftr v 7) 127 = v / 128.
Proof.
  intros Hv. change 127 with (Z.ones 7). rewrite !Z.land_ones by lia. rewrite Z.shiftr_div_pow2 by lia. change (2 ^ 7) with 128.
  split; [reflexivity |]. apply Z.mod_small. split; [apply Z.div_pos; lia | apply Z.div_lt_upper_bound; lia].
Qed.

(** ** DPF input *)
Lemma collect_map_ok {A B} (f : A -> outcome B) (g : A -> B) l : (forall a, In a l -> f a = Ok (g a)) -> collect (map f l) = Ok (map g l).
Proof.
  induction l as [| a l IH]; intros H; [reflexivity |]. cbn [map collect]. rewrite (H a) by (left; reflexivity). cbn [obind].
  rewrite IH by (intros b Hb; apply H; right; exact Hb). reflexivity.
Qed.
Definition raw_byte (st : stray) (events : list mevent) (j : nat) : Z :=
  match nth_error events j with Some e => data_at e j | None => match behind st j with Some b => b | None => 0 end end.
Lemma raw_ok st ms events channel : (forall j, (j < 4)%nat -> behind st j <> None) ->
  raw_calls st ms events channel = Ok (map (fun j => mkCall HV_HASH_MIDIIN ms [of_int (raw_byte st events j); of_int channel]) (seq 0 4)).
Proof.
  intros Hb. apply collect_map_ok. intros j Hj. apply in_seq in Hj. unfold raw_byte. destruct (nth_error events j); [reflexivity |].
  specialize (Hb j ltac:(lia)). destruct (behind st j); [reflexivity | congruence].
Qed.
Lemma carries_bytes e m : carries e m -> forall i, (i < List.length (midi_bytes m))%nat -> data_at e i = nth i (midi_bytes m) 0.
Proof. intros [_ H] i Hi. rewrite <- H. unfold data_at. symmetry. rewrite <- (firstn_skipn (List.length (midi_bytes m)) (ev_data e)) at 2.
  rewrite app_nth1; [reflexivity |]. rewrite H. exact Hi. Qed.

Definition call_of (ms : f64) (m : midi) : call := mkCall (receiver (fst (received m))) ms (map of_int (snd (received m))).
Lemma typical_message ms e m : carries e m -> is_midi m ->
  typical ms (Z.land (data_at e 0) 240) (Z.land (data_at e 0) 15) (data_at e 1) (data_at e 2) = [call_of ms m] /\
  existsb (Z.eqb (data_at e 0)) mrt_set = false.
Proof.
  intros Hc Hm. pose proof (carries_bytes e m Hc) as Hb.
  destruct m as [c a b | c a b | c a b | c a b | c a | c a | c v]; cbn [midi_bytes List.length] in Hb; cbn [is_midi] in Hm;
    destruct Hm as [Hch Hm];
    pose proof (Hb 0%nat ltac:(lia)) as B0; pose proof (Hb 1%nat ltac:(lia)) as B1; try pose proof (Hb 2%nat ltac:(lia)) as B2;
    cbn [nth] in B0, B1; try cbn [nth] in B2.
  all: rewrite B0, B1; try rewrite B2.
  all: match goal with |- context [?k * 16 + ?c] =>
         let kk := eval compute in (k * 16) in change (k * 16 + c) with (kk + c);
         destruct (command_bits kk c ltac:(cbn; tauto) ltac:(assumption)) as (-> & -> & _ & -> & _) end.
  all: split; [| reflexivity].
  all: unfold typical; cbn [Z.eqb Pos.eqb]; try rewrite bend_in by exact Hm; reflexivity.
Qed.
Definition not_raw (c : call) : bool := negb (for_receiver "__hv_midiin" c).
Lemma raw_filter ms events st ch : filter not_raw (map (fun j => mkCall HV_HASH_MIDIIN ms [of_int (raw_byte st events j); of_int ch]) (seq 0 4)) = [].
Proof. reflexivity. Qed.
Lemma receivers_distinct ms m : not_raw (call_of ms m) = true.
Proof. destruct m; reflexivity. Qed.
Lemma dpf_event_ok st sr events e m : (forall j, (j < 4)%nat -> behind st j <> None) -> carries e m -> is_midi m ->
  exists l, dpf_event st sr events e = Ok l /\ filter not_raw l = [call_of (event_ms sr events) m].
Proof.
  intros Hb Hc Hm. unfold dpf_event. rewrite raw_ok by exact Hb. cbn [obind].
  destruct (typical_message (event_ms sr events) e m Hc Hm) as [Ht ->]. rewrite Ht. cbn [obind]. eexists. split; [reflexivity |].
  rewrite filter_app, raw_filter. cbn [app filter]. rewrite receivers_distinct. reflexivity.
Qed.
Lemma dpf_input_ok st sr events ms : (forall j, (j < 4)%nat -> behind st j <> None) -> Forall2 carries events ms -> Forall is_midi ms ->
  exists l, dpf_input st sr events = Ok l /\ filter not_raw l = map (call_of (event_ms sr events)) ms.
Proof.
  intros Hb Hc Hm. unfold dpf_input.
  enough (H : forall all, exists l, collect (map (dpf_event st sr all) events) = Ok l /\
                filter not_raw (List.concat l) = map (call_of (event_ms sr all)) ms).
  { destruct (H events) as (l & -> & Hl). cbn [obind]. exists (List.concat l). split; [reflexivity | exact Hl]. }
  intros all. induction Hc as [| e m events' ms' Hem Hc IH]; [exists []; split; reflexivity |].
  inversion Hm as [| ? ? Hm1 Hm2]; subst. destruct (IH Hm2) as (l & Hl & Hf). destruct (dpf_event_ok st sr all e m Hb Hem Hm1) as (l1 & H1 & F1).
  cbn [map collect]. rewrite H1. cbn [obind]. rewrite Hl. cbn [obind]. exists (l1 :: l). split; [reflexivity |].
  cbn [List.concat map]. rewrite filter_app, F1, Hf. reflexivity.
Qed.
(** Every event sends the same four raw bytes. *)
Lemma raw_of_event st sr events e l : dpf_event st sr events e = Ok l -> (forall j, (j < 4)%nat -> behind st j <> None) ->
  filter (for_receiver "__hv_midiin") l =
  map (fun j => mkCall (receiver "__hv_midiin") (event_ms sr events) [of_int (raw_byte st events j); of_int (Z.land (data_at e 0) 15)]) (seq 0 4).
Proof.
  intros H Hb. unfold dpf_event in H. rewrite raw_ok in H by exact Hb. cbn [obind] in H.
  destruct (existsb (Z.eqb (data_at e 0)) mrt_set).
  - destruct (or_ub (no_arg st)) as [x | |]; cbn [obind] in H; [| discriminate H | discriminate H]. apply (f_equal (fun o => match o with Ok x => x | _ => l end)) in H; cbv beta iota in H; subst l.
    rewrite !filter_app. replace (filter (for_receiver "__hv_midiin") (typical _ _ _ _ _)) with (@nil call); [reflexivity |].
    unfold typical. repeat match goal with |- context [if ?b then _ else _] => destruct b end; reflexivity.
  - cbn [obind] in H. apply (f_equal (fun o => match o with Ok x => x | _ => l end)) in H; cbv beta iota in H; subst l.
    rewrite !filter_app. replace (filter (for_receiver "__hv_midiin") (typical _ _ _ _ _)) with (@nil call); [reflexivity |].
    unfold typical. repeat match goal with |- context [if ?b then _ else _] => destruct b end; reflexivity.
Qed.
Lemma raw_fault x sr events : events <> [] -> (List.length events < 4)%nat -> dpf_input (mkStray (fun _ => None) x) sr events = UB.
Proof.
  intros Hne Hlen. destruct events as [| e events]; [congruence |]. unfold dpf_input. cbn [map collect].
  assert (H : dpf_event (mkStray (fun _ => None) x) sr (e :: events) e = UB).
  { unfold dpf_event. replace (raw_calls _ _ _ _) with (@UB (list call)); [reflexivity |].
    unfold raw_calls. destruct events as [| e1 [| e2 [| e3 ev]]]; cbn [List.length] in Hlen; [reflexivity | reflexivity | reflexivity | lia]. }
  rewrite H. reflexivity.
Qed.
Lemma realtime_fault b sr events e : In e events -> In (data_at e 0) mrt_set -> dpf_input (mkStray b None) sr events <> UB ->
  (forall j, (j < 4)%nat -> b j <> None) -> False.
Proof.
  intros Hin Hrt Hok Hb. apply Hok. unfold dpf_input.
  assert (H : forall all l, In e l -> collect (map (dpf_event (mkStray b None) sr all) l) = UB).
  { intros all l. induction l as [| a l IH]; intros H; [contradiction |]. cbn [map collect].
    assert (Ha : forall a, dpf_event (mkStray b None) sr all a = UB \/ exists r, dpf_event (mkStray b None) sr all a = Ok r).
    { intros a'. unfold dpf_event. rewrite raw_ok by exact Hb. cbn [obind or_ub no_arg].
      destruct (existsb (Z.eqb (data_at a' 0)) mrt_set); cbn [obind]; [now left | right; eexists; reflexivity]. }
    destruct H as [-> | H].
    - unfold dpf_event at 1. rewrite raw_ok by exact Hb. cbn [obind or_ub no_arg].
      assert (Hx : existsb (Z.eqb (data_at e 0)) mrt_set = true) by (apply existsb_exists; eexists; split; [exact Hrt | apply Z.eqb_refl]).
      rewrite Hx. reflexivity.
    - destruct (Ha a) as [-> | [r ->]]; [reflexivity |]. cbn [obind]. rewrite (IH H). reflexivity. }
  rewrite H by exact Hin. reflexivity.
Qed.

(** ** DPF and Daisy output *)
Lemma u_of limit x z : stands_for x z -> 0 <= z < limit -> to_u limit x = Ok z.
Proof.
  intros [F T] H. unfold to_u. rewrite F, T. rewrite (proj2 (Z.leb_le 0 z)) by lia. rewrite (proj2 (Z.ltb_lt z limit)) by lia. reflexivity.
Qed.
Lemma u_of_bad limit x z : stands_for x z -> z < 0 \/ limit <= z -> to_u limit x = UB.
Proof.
  intros [F T] H. unfold to_u. rewrite F, T. destruct H as [H | H].
  - rewrite (proj2 (Z.leb_gt 0 z)) by lia. reflexivity.
  - rewrite (proj2 (Z.ltb_ge z limit)) by lia. rewrite Bool.andb_false_r. reflexivity.
Qed.
Lemma whole_stands z : Z.abs z <= 2 ^ 24 -> stands_for (of_int z) z.
Proof. intros H. destruct (of_int_exact z H) as [E F]. split; [exact F |]. rewrite trunc_R, E. apply Ztrunc_IZR. Qed.

Lemma midi_send_ok w port m vals : is_midi m -> 0 <= port -> channel_of m + 16 * port < 256 ->
  (w = DPF -> port = 0 \/ fst (sent_by port m) <> "__hv_polytouchout"%string) ->
  Forall2 stands_for vals (snd (sent_by port m)) ->
  midi_send w (receiver (fst (sent_by port m))) vals = Ok (Some (midi_bytes (normal m))).
Proof.
  intros Hm Hp Hc Hw Hv.
  assert (M : forall c, 0 <= c < 16 -> (c + 16 * port) mod 16 = c).
  { intros c H. rewrite (Z.mul_comm 16). rewrite Z_mod_plus_full. apply Z.mod_small. exact H. }
  destruct m as [c a b | c a b | c a b | c a b | c a | c a | c v]; cbn [is_midi] in Hm; destruct Hm as [Hch Hm];
    unfold data7 in Hm; cbn [channel_of sent_by fst snd] in *;
    inversion Hv as [| x0 z0 l0 l0' V0 Hv0]; subst; inversion Hv0 as [| x1 z1 l1 l1' V1 Hv1]; subst;
    try (inversion Hv1 as [| x2 z2 l2 l2' V2 Hv2]; subst; inversion Hv2; subst); try match type of Hv1 with Forall2 _ _ [] => inversion Hv1; subst end.
  - change (midi_send w (receiver "__hv_noteout") [x0; x1; x2]) with
      (let! note := to_u8 x0 in let! velocity := to_u8 x1 in let! ch := to_u8 x2 in
       Ok (Some [if 0 <? velocity then Z.lor 144 (ch mod 16) else Z.lor 128 (ch mod 16); note; velocity])).
    unfold to_u8. rewrite (u_of 256 x0 a V0) by lia. cbn [obind]. rewrite (u_of 256 x1 0 V1) by lia. cbn [obind].
    rewrite (u_of 256 x2 (c + 16 * port) V2) by lia. cbn [obind]. rewrite M by exact Hch.
    change (0 <? 0) with false. cbv iota. destruct (command_bits 128 c ltac:(cbn; tauto) Hch) as (_ & _ & -> & _). reflexivity.
  - change (midi_send w (receiver "__hv_noteout") [x0; x1; x2]) with
      (let! note := to_u8 x0 in let! velocity := to_u8 x1 in let! ch := to_u8 x2 in
       Ok (Some [if 0 <? velocity then Z.lor 144 (ch mod 16) else Z.lor 128 (ch mod 16); note; velocity])).
    unfold to_u8. rewrite (u_of 256 x0 a V0) by lia. cbn [obind]. rewrite (u_of 256 x1 b V1) by lia. cbn [obind].
    rewrite (u_of 256 x2 (c + 16 * port) V2) by lia. cbn [obind]. rewrite M by exact Hch.
    destruct (command_bits 128 c ltac:(cbn; tauto) Hch) as (_ & _ & -> & _). destruct (command_bits 144 c ltac:(cbn; tauto) Hch) as (_ & _ & -> & _).
    cbn [normal]. destruct (Z.eqb_spec b 0) as [-> | Hb]; [reflexivity |]. rewrite (proj2 (Z.ltb_lt 0 b)) by lia. reflexivity.
  - change (midi_send w (receiver "__hv_polytouchout") [x0; x1; x2]) with
      (let! value := to_u8 x0 in let! note := to_u8 x1 in let! ch := to_u8 x2 in
       let ch := match w with DPF => ch | Daisy => ch mod 16 end in Ok (Some [Z.lor 160 ch; note; value])).
    unfold to_u8. rewrite (u_of 256 x0 b V0) by lia. cbn [obind]. rewrite (u_of 256 x1 a V1) by lia. cbn [obind].
    rewrite (u_of 256 x2 (c + 16 * port) V2) by lia. cbn [obind].
    assert (Hx : match w with DPF => c + 16 * port | Daisy => (c + 16 * port) mod 16 end = c).
    { destruct w; [destruct (Hw eq_refl) as [-> | N]; [lia | congruence] | apply M; exact Hch]. }
    cbv zeta. rewrite Hx. destruct (command_bits 160 c ltac:(cbn; tauto) Hch) as (_ & _ & -> & _). reflexivity.
  - change (midi_send w (receiver "__hv_ctlout") [x0; x1; x2]) with
      (let! value := to_u8 x0 in let! cc := to_u8 x1 in let! ch := to_u8 x2 in Ok (Some [Z.lor 176 (ch mod 16); cc; value])).
    unfold to_u8. rewrite (u_of 256 x0 b V0) by lia. cbn [obind]. rewrite (u_of 256 x1 a V1) by lia. cbn [obind].
    rewrite (u_of 256 x2 (c + 16 * port) V2) by lia. cbn [obind]. rewrite M by exact Hch.
    destruct (command_bits 176 c ltac:(cbn; tauto) Hch) as (_ & _ & -> & _). reflexivity.
  - change (midi_send w (receiver "__hv_pgmout") [x0; x1]) with
      (let! pgm := to_u8 x0 in let! ch := to_u8 x1 in Ok (Some [Z.lor 192 (ch mod 16); pgm])).
    unfold to_u8. rewrite (u_of 256 x0 a V0) by lia. cbn [obind]. rewrite (u_of 256 x1 (c + 16 * port) V1) by lia. cbn [obind]. rewrite M by exact Hch.
    destruct (command_bits 192 c ltac:(cbn; tauto) Hch) as (_ & _ & -> & _). reflexivity.
  - change (midi_send w (receiver "__hv_touchout") [x0; x1]) with
      (let! value := to_u8 x0 in let! ch := to_u8 x1 in Ok (Some [Z.lor 208 (ch mod 16); value])).
    unfold to_u8. rewrite (u_of 256 x0 a V0) by lia. cbn [obind]. rewrite (u_of 256 x1 (c + 16 * port) V1) by lia. cbn [obind]. rewrite M by exact Hch.
    destruct (command_bits 208 c ltac:(cbn; tauto) Hch) as (_ & _ & -> & _). reflexivity.
  - change (midi_send w (receiver "__hv_bendout") [x0; x1]) with
      (let! value := to_u16' x0 in let! ch := to_u8 x1 in Ok (Some [Z.lor 224 (ch mod 16); Z.land value 127; Z.land (Z.shiftr value 7) 127])).
    unfold to_u8, to_u16'. rewrite (u_of 65536 x0 v V0) by lia. cbn [obind]. rewrite (u_of 256 x1 (c + 16 * port) V1) by lia. cbn [obind]. rewrite M by exact Hch.
    destruct (command_bits 224 c ltac:(cbn; tauto) Hch) as (_ & _ & -> & _). destruct (bend_out v Hm) as [-> ->]. reflexivity.
Qed.
Lemma polytouch_port c k p x0 x1 x2 : 0 <= c < 16 -> data7 k -> data7 p -> stands_for x0 p -> stands_for x1 k -> stands_for x2 (c + 16) ->
  midi_send DPF (receiver "__hv_polytouchout") [x0; x1; x2] = Ok (Some (midi_bytes (Control c k p))).
Proof.
  unfold data7. intros Hc Hk Hp V0 V1 V2.
  change (midi_send DPF (receiver "__hv_polytouchout") [x0; x1; x2]) with
      (let! value := to_u8 x0 in let! note := to_u8 x1 in let! ch := to_u8 x2 in Ok (Some [Z.lor 160 ch; note; value])).
  unfold to_u8. rewrite (u_of 256 x0 p V0) by lia. cbn [obind]. rewrite (u_of 256 x1 k V1) by lia. cbn [obind].
  rewrite (u_of 256 x2 _ V2) by lia. cbn [obind midi_bytes].
  pose proof (enum (fun c => Z.lor 160 (c + 16) =? 11 * 16 + c) 16 ltac:(vm_compute; reflexivity) c Hc) as H. cbv beta in H.
  apply Z.eqb_eq in H. rewrite H. reflexivity.
Qed.
