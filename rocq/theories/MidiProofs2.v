(** Times of events, web pages, raw bytes, transport, print hooks. *)
From Verif Require Import MidiSpec Float32Facts Float64Facts TimeProofs TimeProofs2 TimeProps MidiProofs.
From Coq Require Import Lia Reals Lra.
From Flocq Require Import Core.
Open Scope Z_scope.

(** ** The time of an event *)
Open Scope R_scope.
Lemma event_ms_near sr n : rate_within 1 1000000000 sr -> (0 <= n <= 2 ^ 23)%Z ->
  exists d, ddiv (dmul (d_of_int 1000) (d_of_int n)) sr = d /\ is_finite d = true /\ near (bpow radix2 (-53)) (1000 * IZR n / R64 sr) (R64 d).
Proof.
  intros [Fs Hs] Hn. destruct d1000 as [E1 F1]. destruct (d_of_int_exact n) as [En Fn]; [lia |].
  assert (N : 0 <= IZR n <= 8388608) by (split; apply IZR_le; lia).
  assert (P : 0 <= R64 (d_of_int 1000) * R64 (d_of_int n) <= bpow radix2 40).
  { rewrite E1, En. replace (bpow radix2 40) with 1099511627776 by reflexivity. lra. }
  destruct (dmul_R _ _ 40 F1 Fn P ltac:(lia)) as (Em & Fm). rewrite E1, En, <- mult_IZR in Em.
  rewrite round64_id in Em by (apply fmt64_int; lia). rewrite mult_IZR in Em.
  assert (I : 0 < / R64 sr <= 1). { split; [apply Rinv_0_lt_compat; lra |]. rewrite <- Rinv_1. apply Rinv_le_contravar; lra. }
  assert (Q : 0 <= R64 (dmul (d_of_int 1000) (d_of_int n)) / R64 sr <= bpow radix2 40).
  { rewrite Em. replace (bpow radix2 40) with 1099511627776 by reflexivity. unfold Rdiv. split; [apply Rmult_le_pos; lra |].
    apply Rle_trans with (1000 * IZR n * 1); [apply Rmult_le_compat_l; lra | lra]. }
  destruct (ddiv_R _ sr 40 Fm ltac:(lra) Q ltac:(lia)) as (Ed & Fd). rewrite Em in Ed.
  eexists. split; [reflexivity |]. split; [exact Fd |]. rewrite Ed.
  destruct (Z.eq_dec n 0) as [-> | Nz].
  - replace (1000 * 0 / R64 sr) with 0 by (unfold Rdiv; ring). rewrite round64_0. apply near_refl; [apply bpow_ge_0 | lra].
  - apply round64_near. apply Rlt_le. eapply Rlt_le_trans; [apply bp100 |]. unfold Rdiv.
    assert (1 <= IZR n) by (apply IZR_le; lia).
    assert (J : / 1000000000 <= / R64 sr) by (apply Rinv_le_contravar; lra).
    apply Rle_trans with (1000 * 1 * / 1000000000); [lra |]. apply Rmult_le_compat; lra.
Qed.
Lemma event_time sr start n : rate_within 1 1000000000 sr -> (0 <= n <= 2 ^ 23)%Z ->
  exists k, message_time sr start (ddiv (dmul (d_of_int 1000) (d_of_int n)) sr) = Ok (u32 (start + k)) /\ (k = n \/ k = n - 1)%Z /\ (0 <= k)%Z.
Proof.
  intros Hs Hn. destruct (event_ms_near sr n Hs Hn) as (d & -> & Fd & Nd). destruct (message_delays sr Hs) as [H _].
  assert (N : 0 <= IZR n <= 8388608) by (split; apply IZR_le; lia).
  destruct Hs as [Fs Hs].
  assert (I : 0 < / R64 sr <= 1). { split; [apply Rinv_0_lt_compat; lra |]. rewrite <- Rinv_1. apply Rinv_le_contravar; lra. }
  assert (X : 0 <= 1000 * IZR n / R64 sr <= 8388608000).
  { unfold Rdiv. split; [apply Rmult_le_pos; lra |]. apply Rle_trans with (1000 * IZR n * 1); [apply Rmult_le_compat_l; lra | lra]. }
  assert (S : near (bpow radix2 (-53)) (IZR n) (samples_in (R64 d) (R64 sr))).
  { unfold samples_in. replace (IZR n) with (1000 * IZR n / R64 sr * (R64 sr / 1000)) by (field; lra).
    replace (R64 d * R64 sr / 1000) with (R64 d * (R64 sr / 1000)) by (field).
    apply near_mult; [lra | exact Nd]. }
  unfold near in Nd, S. rewrite bp53 in Nd, S.
  destruct (H d start Fd) as (k & Hk & Hk0 & Hk1); [lra | lra |]. cbv zeta in Hk1.
  exists k. split; [exact Hk |].
  assert (A : IZR n - 2 < IZR k < IZR n + 1) by lra.
  rewrite <- minus_IZR, <- plus_IZR in A. destruct A as [A1 A2]. apply lt_IZR in A1, A2. split; lia.
Qed.
Open Scope Z_scope.

Lemma in_collect {A} (l : list (outcome A)) r x : collect l = Ok r -> In x r -> In (Ok x) l.
Proof.
  revert r. induction l as [| a l IH]; intros r H Hx; cbn [collect] in H; [injection H as <-; contradiction |].
  destruct a as [a | |]; try discriminate H. cbn [obind] in H. destruct (collect l) as [r' | |]; try discriminate H. cbn [obind] in H. injection H as <-.
  destruct Hx as [-> | Hx]; [left; reflexivity | right; exact (IH r' eq_refl Hx)].
Qed.
Lemma event_times st sr events e l c : dpf_event st sr events e = Ok l -> In c l -> c_ms c = event_ms sr events.
Proof.
  unfold dpf_event. intros H Hc. destruct (raw_calls st (event_ms sr events) events (Z.land (data_at e 0) 15)) as [raw | |] eqn:Er; try discriminate H.
  cbn [obind] in H.
  match type of H with (obind ?X _) = _ => destruct X as [rt | |] eqn:Ert; try discriminate H end. cbn [obind] in H.
  apply (f_equal (fun o => match o with Ok x => x | _ => l end)) in H; cbv beta iota in H; subst l.
  apply in_app_or in Hc as [Hc | Hc]; [| apply in_app_or in Hc as [Hc | Hc]].
  - unfold raw_calls in Er. pose proof (in_collect _ _ _ Er Hc) as Hi. apply in_map_iff in Hi as (j & Hj & _).
    match type of Hj with (obind ?X _) = _ => destruct X as [b | |]; try discriminate Hj end. cbn [obind] in Hj.
    apply (f_equal (fun o => match o with Ok x => x | _ => c end)) in Hj; cbv beta iota in Hj; subst c. reflexivity.
  - destruct (existsb (Z.eqb (data_at e 0)) mrt_set).
    + destruct (or_ub (no_arg st)) as [x | |]; try discriminate Ert. cbn [obind] in Ert.
      apply (f_equal (fun o => match o with Ok x => x | _ => rt end)) in Ert; cbv beta iota in Ert; subst rt.
      destruct Hc as [<- | []]. reflexivity.
    + apply (f_equal (fun o => match o with Ok x => x | _ => rt end)) in Ert; cbv beta iota in Ert; subst rt. contradiction.
  - unfold typical in Hc. repeat match type of Hc with context [if ?b then _ else _] => destruct b end; try contradiction; destruct Hc as [<- | []]; reflexivity.
Qed.
Lemma dpf_times st sr events l c : dpf_input st sr events = Ok l -> In c l -> c_ms c = event_ms sr events.
Proof.
  unfold dpf_input. intros H Hc. destruct (collect (map (dpf_event st sr events) events)) as [ls | |] eqn:E; try discriminate H. cbn [obind] in H.
  apply (f_equal (fun o => match o with Ok x => x | _ => l end)) in H; cbv beta iota in H; subst l.
  apply in_concat in Hc as (l & Hl & Hc). pose proof (in_collect _ _ _ E Hl) as Hi. apply in_map_iff in Hi as (e & He & _).
  exact (event_times _ _ _ _ _ _ He Hc).
Qed.

(** ** Web pages *)
Lemma js_input_ok m : is_midi m -> filter not_raw (js_input (midi_bytes m)) = [call_of dzero m].
Proof.
  intros Hm.
  destruct m as [c a b | c a b | c a b | c a b | c a | c a | c v]; cbn [is_midi] in Hm; destruct Hm as [Hch Hm]; cbn [midi_bytes];
    unfold js_input; cbn [nth_error js_bits js_val].
  all: match goal with |- context [?k * 16 + ?c] =>
         let kk := eval compute in (k * 16) in change (k * 16 + c) with (kk + c);
         destruct (command_bits kk c ltac:(cbn; tauto) ltac:(assumption)) as (-> & -> & _ & _ & ->) end.
  all: cbn [Z.eqb Pos.eqb]; try rewrite bend_in by exact Hm; reflexivity.
Qed.
Lemma js_raw m : is_midi m -> filter (for_receiver "__hv_midiin") (js_input (midi_bytes m)) =
  [mkCall (receiver "__hv_midiin") dzero [js_val (nth_error (midi_bytes m) 1); of_int (channel_of m)];
   mkCall (receiver "__hv_midiin") dzero [js_val (nth_error (midi_bytes m) 2); of_int (channel_of m)]].
Proof.
  intros Hm.
  destruct m as [c a b | c a b | c a b | c a b | c a | c a | c v]; cbn [is_midi] in Hm; destruct Hm as [Hch Hm]; cbn [midi_bytes channel_of];
    unfold js_input; cbn [nth_error js_bits js_val].
  all: match goal with |- context [?k * 16 + ?c] =>
         let kk := eval compute in (k * 16) in change (k * 16 + c) with (kk + c);
         destruct (command_bits kk c ltac:(cbn; tauto) ltac:(assumption)) as (-> & -> & _ & _ & ->) end.
  all: cbn [Z.eqb Pos.eqb]; reflexivity.
Qed.
Lemma js_int_whole z : Z.abs z <= 2 ^ 24 -> js_int (of_int z) = z.
Proof. intros H. destruct (whole_stands z H) as [F B]. unfold js_int. rewrite F. exact B. Qed.
Lemma fltb_whole z : 0 <= z <= 2 ^ 24 -> fltb fzero (of_int z) = (0 <? z).
Proof.
  intros H. destruct (of_int_exact z ltac:(lia)) as [E F]. unfold fltb. rewrite Bltb_correct by (reflexivity || exact F).
  rewrite E. change (B2R fzero) with 0%R. destruct (Z.ltb_spec 0 z) as [H1 | H1].
  - apply Rlt_bool_true. apply IZR_lt. exact H1.
  - apply Rlt_bool_false. apply IZR_le. lia.
Qed.
Lemma js_send_ok port m : is_midi m -> 0 <= port < 1024 ->
  js_send (T (fst (sent_by port m))) (map of_int (snd (sent_by port m))) = Ok (map of_int (midi_bytes (normal m))).
Proof.
  intros Hm Hp.
  assert (M : forall k c, In k [128; 144; 160; 176; 192; 208; 224] -> 0 <= c < 16 -> js_or k (of_int (c + 16 * port)) = of_int (k + c)).
  { intros k c Hk H. unfold js_or. rewrite js_int_whole by lia. rewrite Z.rem_mod_nonneg by lia.
    replace ((c + 16 * port) mod 16) with c by (rewrite (Z.mul_comm 16), Z_mod_plus_full, Z.mod_small; lia).
    destruct (command_bits k c Hk H) as (_ & _ & -> & _). reflexivity. }
  destruct m as [c a b | c a b | c a b | c a b | c a | c a | c v]; cbn [is_midi] in Hm; destruct Hm as [Hch Hm];
    unfold data7 in Hm; cbn [sent_by fst snd map].
  - change (js_send (T "__hv_noteout") [of_int a; of_int 0; of_int (c + 16 * port)]) with
      (@Ok (list f32) [js_or (if fltb fzero (of_int 0) then 144 else 128) (of_int (c + 16 * port)); of_int a; of_int 0]).
    rewrite fltb_whole by lia. change (0 <? 0) with false. cbv iota. rewrite M by (cbn; tauto || lia). reflexivity.
  - change (js_send (T "__hv_noteout") [of_int a; of_int b; of_int (c + 16 * port)]) with
      (@Ok (list f32) [js_or (if fltb fzero (of_int b) then 144 else 128) (of_int (c + 16 * port)); of_int a; of_int b]).
    rewrite fltb_whole by lia. cbn [normal]. destruct (Z.eqb_spec b 0) as [-> | Hb].
    + change (0 <? 0) with false. cbv iota. rewrite M by (cbn; tauto || lia). reflexivity.
    + rewrite (proj2 (Z.ltb_lt 0 b)) by lia. rewrite M by (cbn; tauto || lia). reflexivity.
  - change (js_send (T "__hv_polytouchout") [of_int b; of_int a; of_int (c + 16 * port)]) with
      (@Ok (list f32) [js_or 160 (of_int (c + 16 * port)); of_int a; of_int b]). rewrite M by (cbn; tauto || lia). reflexivity.
  - change (js_send (T "__hv_ctlout") [of_int b; of_int a; of_int (c + 16 * port)]) with
      (@Ok (list f32) [js_or 176 (of_int (c + 16 * port)); of_int a; of_int b]). rewrite M by (cbn; tauto || lia). reflexivity.
  - change (js_send (T "__hv_pgmout") [of_int a; of_int (c + 16 * port)]) with
      (@Ok (list f32) [js_or 192 (of_int (c + 16 * port)); of_int a]). rewrite M by (cbn; tauto || lia). reflexivity.
  - change (js_send (T "__hv_touchout") [of_int a; of_int (c + 16 * port)]) with
      (@Ok (list f32) [js_or 208 (of_int (c + 16 * port)); of_int a]). rewrite M by (cbn; tauto || lia). reflexivity.
  - change (js_send (T "__hv_bendout") [of_int v; of_int (c + 16 * port)]) with
      (@Ok (list f32) [js_or 224 (of_int (c + 16 * port)); of_int (Z.land (js_int (of_int v)) 127); of_int (Z.land (Z.shiftr (js_int (of_int v)) 7) 127)]).
    rewrite M by (cbn; tauto || lia). rewrite js_int_whole by lia. destruct (bend_out v Hm) as [-> ->]. reflexivity.
Qed.

(** ** Raw bytes out of a plugin *)
Lemma midi_out_step data z x r : stands_for x z -> 0 <= z < 256 -> (List.length data < 4)%nat ->
  midi_out_all (Some (Z.of_nat (List.length data))) data ([x] :: r) =
  if (List.length data <? 3)%nat then midi_out_all (Some (Z.of_nat (List.length (data ++ [z])))) (data ++ [z]) r
  else let! l := midi_out_all (Some 0) [] r in Ok ((data ++ [z]) :: l).
Proof.
  intros Hx Hz Hd. cbn [midi_out_all]. unfold midi_out. cbn [or_ub obind].
  rewrite (proj2 (Z.leb_le 0 _)) by lia. rewrite (proj2 (Z.ltb_lt _ 4)) by lia. cbn [andb].
  unfold u8_of, float_of, to_u8. cbn [nth_error obind]. rewrite (u_of 256 x z Hx) by lia. cbn [obind].
  rewrite Nat2Z.id. rewrite firstn_all. rewrite app_length. cbn [List.length].
  destruct (Nat.ltb_spec (List.length data) 3) as [H | H].
  - rewrite (proj2 (Z.ltb_lt _ 3)) by lia. cbn [obind].
    replace (Z.of_nat (List.length data) + 1) with (Z.of_nat (List.length data + 1)) by lia.
    destruct (midi_out_all _ _ r); reflexivity.
  - rewrite (proj2 (Z.ltb_ge _ 3)) by lia. cbn [obind]. reflexivity.
Qed.
Lemma midi_out_fours n : forall zs xs, (List.length zs <= n)%nat -> Forall2 stands_for xs zs -> Forall (fun z => 0 <= z < 256) zs ->
  midi_out_all (Some 0) [] (map (fun x => [x]) xs) = Ok (fours zs).
Proof.
  induction n as [n IH] using (well_founded_induction lt_wf). intros zs xs Hn Hx Hz.
  destruct Hx as [| x0 z0 xs zs V0 Hx]; [reflexivity |]. inversion Hz as [| ? ? Z0 Hz0]; subst. cbn [map].
  rewrite (midi_out_step [] z0) by (assumption || cbn; lia). cbn [List.length Nat.ltb Nat.leb app].
  destruct Hx as [| x1 z1 xs zs V1 Hx]; [reflexivity |]. inversion Hz0 as [| ? ? Z1 Hz1]; subst. cbn [map].
  rewrite (midi_out_step [z0] z1) by (assumption || cbn; lia). cbn [List.length Nat.ltb Nat.leb app].
  destruct Hx as [| x2 z2 xs zs V2 Hx]; [reflexivity |]. inversion Hz1 as [| ? ? Z2 Hz2]; subst. cbn [map].
  rewrite (midi_out_step [z0; z1] z2) by (assumption || cbn; lia). cbn [List.length Nat.ltb Nat.leb app].
  destruct Hx as [| x3 z3 xs zs V3 Hx]; [reflexivity |]. inversion Hz2 as [| ? ? Z3 Hz3]; subst. cbn [map].
  rewrite (midi_out_step [z0; z1; z2] z3) by (assumption || cbn; lia). cbn [List.length Nat.ltb Nat.leb app fours].
  cbn [List.length] in Hn. rewrite (IH (List.length zs) ltac:(lia) zs xs ltac:(lia) Hx Hz3). reflexivity.
Qed.

(** ** Transport *)
Lemma transport_events_ok was p : flat_map transport_of (transport_events was p) = change_of was p /\
  existsb (status_is 255) (transport_events was p) = (playing p && (frame p =? 0))%bool.
Proof.
  unfold transport_events, change_of. destruct (playing p), was, (frame p =? 0); vm_compute; split; reflexivity.
Qed.
Lemma flat_map_app' {A B} (f : A -> list B) l1 l2 : flat_map f (l1 ++ l2) = flat_map f l1 ++ flat_map f l2.
Proof. induction l1 as [| a l IH]; [reflexivity |]. cbn [flat_map app]. rewrite IH, app_assoc. reflexivity. Qed.
Lemma clock_not_transport d : transport_of (realtime d 248) = [] /\ status_is 255 (realtime d 248) = false.
Proof.
  assert (H : forall z, status_is z (realtime d 248) = feqb (of_int 248) (of_int z)) by (intros z; reflexivity).
  unfold transport_of. rewrite !H. vm_compute. split; reflexivity.
Qed.
Lemma some_pair {A B} (a c : A) (b d : B) : Some (a, b) = Some (c, d) -> c = a /\ d = b.
Proof. intros H. inversion H. auto. Qed.
Lemma tick_loop_clocks sr spt start stop fuel : forall next n l, tick_loop sr spt start stop fuel next = Some (n, l) ->
  flat_map transport_of l = [] /\ existsb (status_is 255) l = false.
Proof.
  induction fuel as [| fuel IH]; intros next n l H; cbn [tick_loop] in H.
  - destruct (dltb next stop); [discriminate H |]. apply some_pair in H as [-> ->]. split; reflexivity.
  - destruct (dltb next stop); [| apply some_pair in H as [-> ->]; split; reflexivity].
    destruct (tick_loop sr spt start stop fuel (dadd next (widen spt))) as [[n' l'] |] eqn:E; [| discriminate H].
    apply some_pair in H as [-> ->]. destruct (IH _ _ _ E) as [H1 H2].
    destruct (dleb dzero _); [| split; assumption]. cbn [app flat_map existsb].
    destruct (clock_not_transport (ddiv (dmul (d_of_int 1000) (dsub next start)) sr)) as [-> ->]. split; assumption.
Qed.
Lemma host_transport_ok fuel sr t p n t' l : host_transport fuel sr t p n = Some (t', l) ->
  was_playing t' = playing p /\ flat_map transport_of l = change_of (was_playing t) p /\
  existsb (status_is 255) l = (playing p && (frame p =? 0))%bool.
Proof.
  unfold host_transport. intros H. destruct (transport_events_ok (was_playing t) p) as [H1 H2].
  destruct (playing p && bbt_valid p)%bool.
  - destruct (_ && _ && _)%bool.
    + destruct (tick_loop _ _ _ _ _ _) as [[n2 l2] |] eqn:E; [| discriminate H]. apply some_pair in H as [-> ->].
      destruct (tick_loop_clocks _ _ _ _ _ _ _ _ E) as [T1 T2].
      rewrite flat_map_app', T1, app_nil_r, existsb_app, T2, Bool.orb_false_r. auto.
    + apply some_pair in H as [-> ->]. auto.
  - apply some_pair in H as [-> ->]. auto.
Qed.
Lemma changes_alternate l : forall b, alternate b (changes b l).
Proof.
  induction l as [| [p n] l IH]; intros b; [exact Logic.I |]. cbn [changes]. specialize (IH (playing p)). unfold change_of.
  destruct b, (playing p); cbn [app]; try exact IH; try (destruct (frame p =? 0)); cbn [alternate]; auto.
Qed.
Lemma host_blocks_ok fuel sr : forall l t t' r, host_blocks fuel sr t l = Some (t', r) ->
  flat_map transport_of (List.concat r) = changes (was_playing t) l /\
  Forall2 (fun e cs => existsb (status_is 255) cs = (playing (fst e) && (frame (fst e) =? 0))%bool) l r.
Proof.
  induction l as [| [p n] l IH]; intros t t' r H; cbn [host_blocks] in H; [injection H as <- <-; split; constructor |].
  destruct (host_transport fuel sr t p n) as [[t1 c] |] eqn:E; [| discriminate H].
  destruct (host_blocks fuel sr t1 l) as [[t2 r'] |] eqn:E2; [| discriminate H]. injection H as <- <-.
  destruct (host_transport_ok _ _ _ _ _ _ _ E) as (W & C & R). destruct (IH _ _ _ E2) as [H1 H2].
  cbn [List.concat changes]. rewrite flat_map_app', C, H1, W. split; [reflexivity |]. constructor; [exact R | exact H2].
Qed.

(** ** Print hooks *)
Lemma store_at (a b : buffer) l : store (a ++ b) (List.length a) l = a ++ store b 0 l.
Proof. induction a as [| x a IH]; [destruct b; reflexivity |]. cbn [List.length app store]. rewrite IH. reflexivity. Qed.
Lemma store_at' (a b : buffer) n l : List.length a = n -> store (a ++ b) n l = a ++ store b 0 l.
Proof. intros <-. apply store_at. Qed.
Lemma store_all l b : (List.length l <= List.length b)%nat -> store b 0 l = map Some l ++ skipn (List.length l) b.
Proof.
  revert b. induction l as [| x l IH]; intros [| y b] H; cbn [List.length] in H; try lia; try reflexivity.
  cbn [store map app List.length skipn]. f_equal. apply IH. lia.
Qed.
Lemma c_string_ok l r : proper l -> c_string (map Some l ++ Some 0 :: r) = Ok l.
Proof.
  induction 1 as [| x l Hx Hl IH]; [reflexivity |]. cbn [map app c_string]. rewrite IH. rewrite (proj2 (Z.eqb_neq x 0)) by lia. reflexivity.
Qed.
Lemma c_string_bad l r : proper l -> c_string (map Some l ++ None :: r) = UB.
Proof.
  induction 1 as [| x l Hx Hl IH]; [reflexivity |]. cbn [map app c_string]. rewrite IH. rewrite (proj2 (Z.eqb_neq x 0)) by lia. reflexivity.
Qed.
Lemma ncpy_all s n : ncpy s n = firstn n s ++ repeat 0 (n - List.length s). Proof. reflexivity. Qed.
Lemma ncpy_length s n : List.length (ncpy s n) = n.
Proof. unfold ncpy. rewrite app_length, firstn_length, repeat_length. lia. Qed.
Lemma ncpy_label label : ncpy label (label_len label) = firstn 48 label.
Proof.
  unfold ncpy, label_len. replace (Nat.min (List.length label) 48 - List.length label)%nat with O by lia. cbn [repeat]. rewrite app_nil_r.
  destruct (Nat.le_ge_cases (List.length label) 48).
  - rewrite !firstn_all2 by lia. reflexivity.
  - rewrite Nat.min_r by lia. reflexivity.
Qed.
Lemma firstn_proper n l : proper l -> proper (firstn n l).
Proof. unfold proper. rewrite !Forall_forall. intros H x Hx. apply H. rewrite <- (firstn_skipn n l). apply in_or_app. left. exact Hx. Qed.
Lemma skipn_repeat {A} (x : A) n k : skipn n (repeat x k) = repeat x (k - n).
Proof. revert k. induction n as [| n IH]; intros [| k]; try reflexivity. cbn [skipn repeat]. rewrite IH. reflexivity. Qed.
Lemma repeat_cons' {A} (x : A) n : (0 < n)%nat -> repeat x n = x :: repeat x (n - 1).
Proof. destruct n as [| n]; [lia |]. intros _. cbn [repeat]. replace (S n - 1)%nat with n by lia. reflexivity. Qed.

Lemma daisy_buffer label message :
  let len := label_len label in
  store (store (store fresh_buffer 0 (ncpy label len)) len (T " " ++ [0])) (S len) (ncpy message (63 - len)) =
  map Some (firstn 48 label ++ [32]) ++ map Some (ncpy message (63 - len)).
Proof.
  cbv zeta. rewrite ncpy_label. set (a := firstn 48 label).
  assert (La : List.length a = label_len label) by (unfold a, label_len; rewrite firstn_length; lia).
  assert (L48 : (label_len label <= 48)%nat) by (unfold label_len; lia).
  unfold fresh_buffer. rewrite store_all by (rewrite repeat_length; lia). rewrite skipn_repeat, La.
  assert (Lm : List.length (map Some a) = label_len label) by (rewrite map_length; exact La).
  rewrite (store_at' _ _ _ _ Lm). change (T " " ++ [0]) with [32; 0].
  rewrite store_all by (rewrite repeat_length; cbn [List.length]; lia).
  rewrite skipn_repeat. cbn [map List.length].
  rewrite map_app. cbn [map]. rewrite <- app_assoc. cbn [app].
  change (map Some a ++ Some 32 :: Some 0 :: repeat None (64 - label_len label - 2)) with
    (map Some a ++ [Some 32] ++ Some 0 :: repeat None (64 - label_len label - 2)).
  rewrite app_assoc.
  assert (Lm' : List.length (map Some a ++ [Some 32]) = S (label_len label)) by (rewrite app_length, Lm; cbn; lia).
  rewrite (store_at' _ _ _ _ Lm'). rewrite store_all by (rewrite ncpy_length; cbn [List.length]; rewrite repeat_length; lia).
  rewrite ncpy_length. rewrite <- app_assoc. cbn [app]. do 2 f_equal.
  replace (skipn (63 - label_len label) (Some 0 :: repeat None (64 - label_len label - 2))) with (@nil (option Z)); [apply app_nil_r |].
  symmetry. apply skipn_all2. cbn [List.length]. rewrite repeat_length. lia.
Qed.
Lemma daisy_print_ok label message : proper label -> proper message -> (List.length message < 63 - label_len label)%nat ->
  daisy_print label message = Ok (firstn 48 label ++ [32] ++ message).
Proof.
  intros Hl Hm Hn. unfold daisy_print. rewrite daisy_buffer. unfold ncpy. rewrite (firstn_all2 message) by lia.
  rewrite repeat_cons' by lia. rewrite (map_app Some message). cbn [map].
  replace (map Some (firstn 48 label ++ [32]) ++ map Some message ++ Some 0 :: map Some (repeat 0 (63 - label_len label - List.length message - 1)))
    with (map Some (firstn 48 label ++ [32] ++ message) ++ Some 0 :: map Some (repeat 0 (63 - label_len label - List.length message - 1))).
  2: { rewrite !map_app, <- !app_assoc. reflexivity. }
  apply c_string_ok. unfold proper. apply Forall_app. split; [apply firstn_proper, Hl |]. constructor; [lia | exact Hm].
Qed.
Lemma c_string_end l : proper l -> c_string (map Some l) = UB.
Proof.
  induction 1 as [| x l Hx Hl IH]; [reflexivity |]. cbn [map c_string]. rewrite IH. rewrite (proj2 (Z.eqb_neq x 0)) by lia. reflexivity.
Qed.
Lemma daisy_print_long label message : proper label -> proper message -> (63 - label_len label <= List.length message)%nat ->
  daisy_print label message = UB.
Proof.
  intros Hl Hm Hn. unfold daisy_print. rewrite daisy_buffer. unfold ncpy.
  replace (63 - label_len label - List.length message)%nat with O by lia. cbn [repeat]. rewrite app_nil_r, <- map_app.
  apply c_string_end. unfold proper. apply Forall_app. split; [apply Forall_app; split; [apply firstn_proper, Hl | repeat constructor; lia] | apply firstn_proper, Hm].
Qed.
(** The bytes of the plugin's buffer after label and space; the message overwrites them. *)
Lemma dpf_buffer label message : proper label -> exists r,
  store (store (store fresh_buffer 0 (ncpy label (label_len label))) 0 (T " " ++ [0])) 0 (ncpy message (63 - label_len label)) =
  map Some (ncpy message (63 - label_len label)) ++ map Some r ++ repeat None (64 - Nat.max (label_len label) (63 - label_len label)) /\ proper r.
Proof.
  intros Hl. rewrite ncpy_label. set (a := firstn 48 label).
  assert (La : List.length a = label_len label) by (unfold a, label_len; rewrite firstn_length; lia).
  assert (L48 : (label_len label <= 48)%nat) by (unfold label_len; lia).
  unfold fresh_buffer. rewrite (store_all a) by (rewrite repeat_length; lia). rewrite skipn_repeat, La.
  change (T " " ++ [0]) with [32; 0].
  rewrite (store_all [32; 0]) by (rewrite app_length, map_length, repeat_length; cbn [List.length]; lia). cbn [List.length].
  rewrite store_all by (rewrite ncpy_length, app_length, skipn_length, app_length, !map_length, repeat_length; cbn [List.length]; lia).
  rewrite ncpy_length. exists (skipn (63 - label_len label) a). split.
  - f_equal. remember (63 - label_len label)%nat as k.
    replace (skipn k (map Some [32; 0] ++ skipn 2 (map Some a ++ repeat None (64 - label_len label)))) with (skipn k (map Some a ++ repeat (@None Z) (64 - label_len label))).
    + rewrite skipn_app, skipn_map, skipn_repeat, map_length. f_equal. f_equal. lia.
    + assert (K : (2 <= k)%nat) by lia. clear -K La L48. destruct k as [| [| k]]; [lia | lia |].
      destruct (map Some a ++ repeat None (64 - label_len label)) as [| x [| y l]] eqn:E.
      * apply (f_equal (@List.length _)) in E. rewrite app_length, map_length, repeat_length in E. cbn [List.length] in E. lia.
      * apply (f_equal (@List.length _)) in E. rewrite app_length, map_length, repeat_length in E. cbn [List.length] in E. lia.
      * reflexivity.
  - unfold proper in *. apply Forall_forall. intros x Hx. rewrite Forall_forall in Hl. apply Hl. rewrite <- (firstn_skipn 48 label).
    apply in_or_app. left. fold a. rewrite <- (firstn_skipn (63 - label_len label) a). apply in_or_app. right. exact Hx.
Qed.
Lemma dpf_print_ok label message : proper label -> proper message -> (List.length message < 63 - label_len label)%nat ->
  dpf_print label message = Ok message.
Proof.
  intros Hl Hm Hn. unfold dpf_print. destruct (dpf_buffer label message Hl) as (r & E & Hr). cbv zeta. rewrite E. unfold ncpy.
  rewrite firstn_all2 by lia. rewrite repeat_cons' by lia. rewrite map_app, <- app_assoc. cbn [map app]. apply c_string_ok. exact Hm.
Qed.
Lemma dpf_print_long label message : proper label -> proper message -> (63 - label_len label <= List.length message)%nat ->
  dpf_print label message = UB.
Proof.
  intros Hl Hm Hn. unfold dpf_print. destruct (dpf_buffer label message Hl) as (r & E & Hr). cbv zeta. rewrite E. unfold ncpy.
  replace (63 - label_len label - List.length message)%nat with O by lia. cbn [repeat]. rewrite app_nil_r.
  assert (L48 : (label_len label <= 48)%nat) by (unfold label_len; lia).
  rewrite repeat_cons' by lia. rewrite app_assoc, <- map_app. apply c_string_bad. unfold proper. apply Forall_app. split; [apply firstn_proper, Hm | exact Hr].
Qed.
