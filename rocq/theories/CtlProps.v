(** Theorems about control objects that route, store and rearrange messages (C37, C38, C48-C51). *)
From Coq Require Import ZifyBool.
From Verif Require Import MessageModel MessageSpec MessageProofs MessageProofs2 CtlModel CtlSpec CtlProofs CtlProofs2 CtlProofs3 HashProofs.
From Verif Require PoolModel.

(** C38: over every history of messages on its inlets whose numbers convert to int and as long as
    the start is not negative when a list arrives, a slice object answers a list with exactly the
    window of it, or with a bang on the second outlet when the window is empty. *)
Theorem slice_windows : forall f2i mem h hv i n t ves,
  carries mem h hv -> spec_run (slice_spec f2i) (i, n) hv = Some (t, ves) ->
  exists o es, obj_run (cSlice_onMessage f2i) (mkSlice i n) h = Ok (o, es) /\
    o = mkSlice (fst t) (snd t) /\ all_emits_are mem h es ves.
Proof.
  intros f2i mem h hv i n t ves HC Hr.
  exact (run_refines mem (cSlice_onMessage f2i) (slice_spec f2i) (fun s t => s = mkSlice (fst t) (snd t))
           (slice_step f2i mem) h hv (mkSlice i n) (i, n) t ves HC eq_refl Hr).
Qed.
Print Assumptions slice_windows.

(** C38 boundary: with a negative start, reading before the message is undefined behaviour. *)
Theorem slice_negative_start_refuted : exists m vs, values [] m = Some vs /\ slice_hot (mkSlice (-1) 0) m = UB.
Proof. exists (mkMsg 0 1 24 [Some (Flt 0)]), [VFloat 0]. split; reflexivity. Qed.
Print Assumptions slice_negative_start_refuted.

(** C48, the part that holds: a window without symbols reports exactly the bytes it needs. *)
Theorem slice_size_without_symbols : forall mem o m vs, values mem m = Some vs -> m_n m < 65536 -> 0 <= sl_i o ->
  let w := window (sl_i o) (sl_n o) vs in
  w <> [] -> Forall (fun v => text_bytes v = 0) w -> 8 + 16 * zlen w < 65536 ->
  exists n, slice_hot o m = Ok [(0, n)] /\ values mem n = Some w /\ m_nb n = needed w.
Proof.
  intros mem o m vs H Hn Hi w Hw Ht Hs. destruct (slice_hot_ok mem o m vs H Hn Hi) as (e & A & B). fold w in B.
  destruct w as [|w0 w'] eqn:E; [congruence|]. destruct B as (B & n & -> & N1 & N2 & N3). exists n.
  split; [exact A|]. inversion B as [|? ? ? ? (_ & C & _) _]; subst. split; [exact C|].
  rewrite N1. unfold needed. rewrite u16_id by (pose proof (zlen_nonneg (w0 :: w')); lia).
  assert (fold_right Z.add 0 (map text_bytes (w0 :: w')) = 0) as ->; [|lia].
  clear -Ht. induction Ht; cbn [map fold_right]; lia.
Qed.
Print Assumptions slice_size_without_symbols.

(** C48 is false: slicing the symbol "abcdefgh" out of "bang abcdefgh" gives a message that needs
    33 bytes but reports 24; the pool gives it a chunk of 32 and copying it there trips the
    assertion (without assertions it writes past the chunk). *)
Definition slice_mem : bytes := [0; 97; 98; 99; 100; 101; 102; 103; 104; 0] ++ repeat 0 64.
Definition slice_src : msg := mkMsg 0 2 49 [Some Bang; Some (Sym 1)].
Theorem slice_symbol_size_refuted : exists n w,
  values slice_mem slice_src = Some [VBang; VSymbol [97; 98; 99; 100; 101; 102; 103; 104]] /\
  m_nb slice_src = needed [VBang; VSymbol [97; 98; 99; 100; 101; 102; 103; 104]] /\
  slice_hot (mkSlice 1 0) slice_src = Ok [(0, n)] /\ values slice_mem n = Some w /\ needed w = 33 /\ m_nb n = 24 /\
  PoolModel.mp_messagelistIndexForSize 24 = Ok 0 /\
  msg_copyToBuffer slice_mem n 16 32 = AssertFail.
Proof. eexists _, _. repeat split; vm_compute; reflexivity. Qed.
Print Assumptions slice_symbol_size_refuted.

(** C49: over every history without symbols on the right inlets, a pack object outputs, for each
    message on its first inlet, the latest value of every inlet with the incoming timestamp. *)
Theorem pack_latest_values : forall mem vals h hv t ves,
  0 < zlen vals < 65536 -> carries mem h hv -> spec_run pack_spec (map VFloat vals) hv = Some (t, ves) ->
  exists s0 s es, cPack_init vals = Ok s0 /\ obj_run (cPack_onMessage mem) s0 h = Ok (s, es) /\
    values mem s = Some t /\ m_nb s = u16 (needed t) /\ all_emits_are mem h es ves.
Proof.
  intros mem vals h hv t ves Hl HC Hr. destruct (pack_init_ok mem vals Hl) as (s0 & A & B).
  destruct (run_refines mem (cPack_onMessage mem) pack_spec (pack_rel mem) (pack_step mem) h hv s0 (map VFloat vals) t ves HC B Hr)
    as (s & es & R1 & R2 & R3).
  exists s0, s, es. split; [exact A|]. split; [exact R1|]. split; [apply pack_rel_values; exact R2|]. split; [|exact R3].
  destruct R2 as (_ & _ & _ & R2 & F). rewrite R2. f_equal. unfold needed.
  assert (fold_right Z.add 0 (map text_bytes t) = 0) as ->; [|lia].
  clear -F. induction F as [|v l Hv F IH]; cbn [map fold_right]; [reflexivity|]. destruct v; cbn [text_bytes]; try contradiction; lia.
Qed.
Print Assumptions pack_latest_values.

(** C49 boundary: a symbol on a right inlet is not stored: the object reads the next element of the
    message instead.  For a message of one symbol that trips the assertion; for "ab 1.0" it uses
    the bits of the number as a pointer. *)
Definition pack_mem : bytes := [0; 97; 98; 0].
Theorem pack_symbol_refuted : exists s m1 m2,
  cPack_init [0; 0] = Ok s /\
  values pack_mem m1 = Some [VSymbol [97; 98]] /\ cPack_onMessage pack_mem s 1 m1 = AssertFail /\
  values pack_mem m2 = Some [VSymbol [97; 98]; VFloat 1065353216] /\ cPack_onMessage pack_mem s 1 m2 = UB.
Proof.
  eexists _, (mkMsg 0 1 27 [Some (Sym 1)]), (mkMsg 0 2 43 [Some (Sym 1); Some (Flt 1065353216)]).
  repeat split; vm_compute; reflexivity.
Qed.
Print Assumptions pack_symbol_refuted.

(** C50: a var object outputs its stored value on a bang, and stores and forwards anything else on
    the left inlet; the right inlet only stores. *)
Theorem var_stores_latest : forall mem h hv (x : Z) (is_float : bool) t ves,
  let v0 := if is_float then VFloat x else VHash x in
  let e0 := if is_float then Flt x else Hsh x in
  carries mem h hv -> spec_run var_spec v0 hv = Some (t, ves) ->
  exists s es, obj_run (cVar_onMessage mem) e0 h = Ok (s, es) /\ value_of mem s = Some t /\ all_emits_are mem h es ves.
Proof.
  intros mem h hv x is_float t ves v0 e0 HC Hr.
  destruct (run_refines mem (cVar_onMessage mem) var_spec (var_rel mem) (var_step mem) h hv e0 v0 t ves HC) as (s & es & A & B & C);
    [unfold e0, v0; destruct is_float; reflexivity|exact Hr|].
  exists s, es. split; [exact A|]. split; [|exact C]. destruct s, t; cbn in B; try contradiction; subst; reflexivity.
Qed.
Print Assumptions var_stores_latest.

(** C50: every input history is covered. *)
Theorem var_spec_total : forall hv v, exists r, spec_run var_spec v hv = Some r.
Proof.
  induction hv as [|[i vs] hv IH]; intros v; cbn [spec_run]; [eauto|].
  assert (exists r, var_spec v i vs = Some r) as ([t e] & ->).
  { unfold var_spec. destruct i as [|[p|p|]|p]; destruct vs as [|[] ?]; eauto. }
  destruct (IH t) as ([t2 es] & ->). eauto.
Qed.
Print Assumptions var_spec_total.

(** C50: an if object forwards each left message to the right outlet when the last number on its
    right inlet was not zero (initially [k]) and to the left outlet otherwise. *)
Theorem if_routes : forall mem h hv k t ves,
  carries mem h hv -> spec_run if_spec k hv = Some (t, ves) ->
  exists es, obj_run cIf_onMessage k h = Ok (t, es) /\ all_emits_are mem h es ves.
Proof.
  intros mem h hv k t ves HC Hr.
  destruct (run_refines mem cIf_onMessage if_spec eq (if_step mem) h hv k k t ves HC eq_refl Hr) as (s & es & A & -> & C).
  eauto.
Qed.
Print Assumptions if_routes.

(** C50: the casts. *)
Theorem cast_converts : forall mem bang_p float_p c m vs, values mem m = Some vs ->
  cstr mem bang_p = Ok [98; 97; 110; 103] -> cstr mem float_p = Ok [102; 108; 111; 97; 116] ->
  exists e, cCast_onMessage mem bang_p float_p c m = Ok e /\ emits_are mem (m_ts m) e (cast_spec c vs).
Proof. exact cast_ok. Qed.
Print Assumptions cast_converts.

(** C51: a message box whose $-arguments all exist in the incoming message produces one message per
    comma-separated part, in order, with the incoming timestamp, each $k replaced by element k of
    the incoming message and the rest literal; the messages report exactly the bytes they need. *)
Theorem message_box_substitutes : forall mem n vs boxes, values mem n = Some vs ->
  Forall (fun b => 0 < zlen b < 65536 /\
    exists ws vals, Forall2 (box_value_of mem) b ws /\ Forall2 (fun w v => fill vs w = Some v) ws vals) boxes ->
  exists ms, cMsg_sendMessage mem boxes n = Ok ms /\ Forall2 (fun b m => box_message mem vs b (m_ts n) m) boxes ms.
Proof. exact boxes_ok. Qed.
Print Assumptions message_box_substitutes.

(** C51 boundary: $2 with a message of one element trips the assertion; $0 reads before the message. *)
Theorem message_box_missing_argument_refuted : exists n, values [] n = Some [VFloat 0] /\
  cMsg_sendMessage [] [[BArg 2]] n = AssertFail /\ cMsg_sendMessage [] [[BArg 0]] n = UB.
Proof. exists (mkMsg 0 1 24 [Some (Flt 0)]). repeat split; vm_compute; reflexivity. Qed.
Print Assumptions message_box_missing_argument_refuted.

(** C37: for labels with distinct hashes (others do not compile), a message with a selected element
    goes to exactly one outlet: that of the only label whose hash is the element's, or the last. *)
Theorem switchcase_by_hash : forall mem labels hs m vs v,
  label_hashes labels = Some hs -> no_dups hs = true -> values mem m = Some vs -> selected vs = Some v ->
  exists k, switchcase_outlet mem hs m = Ok k /\ 0 <= k <= zlen labels /\
    forall j c, nth_error labels j = Some c -> (label_hash c = Some (key v) <-> Z.of_nat j = k).
Proof.
  intros mem labels hs m vs v HL HD H Hs. destruct (switchcase_ok mem hs m vs v H Hs) as (k & A & B). exists k. split; [exact A|].
  destruct (label_hashes_nth labels hs HL) as (L1 & L2). apply no_dups_spec in HD.
  split; [unfold zlen in *; destruct B as [B|B]; lia|].
  intros j c Hj. destruct (L2 j c Hj) as (x & X1 & X2). rewrite X1. split.
  - intros [= ->]. destruct B as [(B1 & B2)|(B1 & B2)].
    + assert (j = Z.to_nat k); [|lia]. apply (proj1 (NoDup_nth_error hs) HD); [apply nth_error_Some; congruence|congruence].
    + exfalso. apply B2. eapply nth_error_In. exact X2.
  - intros <-. destruct B as [(B1 & B2)|(B1 & B2)].
    + rewrite Nat2Z.id in B2. congruence.
    + exfalso. assert (j < length hs)%nat by (apply nth_error_Some; congruence). unfold zlen in B1. lia.
Qed.
Print Assumptions switchcase_by_hash.

(** C37 for values: if the selected element's hash is not, by accident, that of a label naming
    something else, the message goes to the outlet of the label that names the element, else to the last. *)
Theorem switchcase_by_value : forall mem labels hs m vs v,
  label_hashes labels = Some hs -> no_dups hs = true -> values mem m = Some vs -> selected vs = Some v ->
  Forall plain_label labels ->
  (v = VBang \/ ~ In (LStr [98; 97; 110; 103]) labels) ->
  (forall c, In c labels -> label_hash c = Some (key v) -> names c v) ->
  exists k, switchcase_outlet mem hs m = Ok k /\ 0 <= k <= zlen labels /\
    forall j c, nth_error labels j = Some c -> (names c v <-> Z.of_nat j = k).
Proof.
  intros mem labels hs m vs v HL HD H Hs HP HB HN.
  destruct (switchcase_by_hash mem labels hs m vs v HL HD H Hs) as (k & A & B & C). exists k. split; [exact A|]. split; [exact B|].
  intros j c Hj. rewrite <- (C j c Hj). assert (In c labels) by (eapply nth_error_In; exact Hj). split; [|apply HN; assumption].
  apply label_key; [rewrite Forall_forall in HP; auto|]. destruct HB as [HB|HB]; [left; exact HB|right]. intros ->. contradiction.
Qed.
Print Assumptions switchcase_by_value.

(** C37 is false without those conditions: a message consisting of the word "symbol" trips the
    assertion; -0.0 does not match the case 0; the symbol "bang" does not match the case "bang";
    the float whose bits are the hash of "a" matches the case "a". *)
Definition sw_mem : bytes := [0; 115; 121; 109; 98; 111; 108; 0; 98; 97; 110; 103; 0].
Theorem switchcase_refuted :
  (exists m, values sw_mem m = Some [VSymbol [115; 121; 109; 98; 111; 108]] /\ switchcase_outlet sw_mem [] m = AssertFail) /\
  (exists m hs, values sw_mem m = Some [VFloat 2147483648] /\ label_hashes [LNum 0] = Some hs /\ switchcase_outlet sw_mem hs m = Ok 1) /\
  (exists m hs, values sw_mem m = Some [VSymbol [98; 97; 110; 103]] /\ label_hashes [LStr [98; 97; 110; 103]] = Some hs /\
     switchcase_outlet sw_mem hs m = Ok 1) /\
  (exists m hs b, values sw_mem m = Some [VFloat b] /\ label_hashes [LStr [97]] = Some hs /\ switchcase_outlet sw_mem hs m = Ok 0).
Proof.
  split; [exists (mkMsg 0 1 31 [Some (Sym 1)]); split; vm_compute; reflexivity|].
  split; [exists (mkMsg 0 1 24 [Some (Flt 2147483648)]); eexists; repeat split; vm_compute; reflexivity|].
  split; [exists (mkMsg 0 1 29 [Some (Sym 8)]); eexists; repeat split; vm_compute; reflexivity|].
  exists (mkMsg 0 1 24 [Some (Flt (hv_string_to_hash [97]))]). eexists _, _. repeat split; vm_compute; reflexivity.
Qed.
Print Assumptions switchcase_refuted.

(** Concrete cases that meet the hypotheses. *)
Definition ctl_mem : bytes := [0; 97; 98; 0].
Definition ctl_msg : msg := mkMsg 7 3 59 [Some (Flt 5); Some (Sym 1); Some Bang].
Definition ctl_set : msg := mkMsg 6 2 40 [Some (Flt 1); Some (Flt 1)].
Example slice_example :
  let f2i b := Some b in
  let h := [(1, ctl_set); (0, ctl_msg); (2, ctl_set); (0, ctl_set)] in
  let hv := [(1, [VFloat 1; VFloat 1]); (0, [VFloat 5; VSymbol [97; 98]; VBang]); (2, [VFloat 1; VFloat 1]); (0, [VFloat 1; VFloat 1])] in
  carries ctl_mem h hv /\
  spec_run (slice_spec f2i) (0, 0) hv = Some ((1, 1), [[]; [(0, [VSymbol [97; 98]])]; []; [(0, [VFloat 1])]]).
Proof. split; [repeat (constructor; [split; [reflexivity|]; split; [reflexivity|cbn; lia]|]); constructor|reflexivity]. Qed.
Example pack_example :
  let h := [(1, ctl_set); (0, ctl_msg)] in
  let hv := [(1, [VFloat 1; VFloat 1]); (0, [VFloat 5; VSymbol [97; 98]; VBang])] in
  carries ctl_mem h hv /\
  spec_run pack_spec (map VFloat [9; 9; 9]) hv = Some ([VFloat 5; VHash (hv_string_to_hash [97; 98]); VFloat 9],
    [[]; [(0, [VFloat 5; VHash (hv_string_to_hash [97; 98]); VFloat 9])]]).
Proof. split; [repeat (constructor; [split; [reflexivity|]; split; [reflexivity|cbn; lia]|]); constructor|reflexivity]. Qed.
Example box_example : exists ms, cMsg_sendMessage ctl_mem [[BArg 2; BNum 3]; [BBang]] ctl_msg = Ok ms /\
  map (values ctl_mem) ms = [Some [VSymbol [97; 98]; VFloat 3]; Some [VBang]].
Proof. eexists. split; vm_compute; reflexivity. Qed.
Example switchcase_example :
  let labels := [LNum 5; LStr [97; 98]] in
  exists hs, label_hashes labels = Some hs /\ no_dups hs = true /\ Forall plain_label labels /\
  selected [VFloat 5; VSymbol [97; 98]; VBang] = Some (VFloat 5) /\ switchcase_outlet ctl_mem hs ctl_msg = Ok 0 /\
  switchcase_outlet ctl_mem hs (mkMsg 7 1 27 [Some (Sym 1)]) = Ok 1 /\
  (forall c, In c labels -> label_hash c = Some (key (VFloat 5)) -> names c (VFloat 5)).
Proof.
  eexists. split; [vm_compute; reflexivity|]. split; [reflexivity|]. split.
  { constructor; [exact I|]. constructor; [|constructor]. split; [intros b [<-|[<-|[]]]; lia|vm_compute; reflexivity]. }
  split; [reflexivity|]. split; [reflexivity|]. split; [reflexivity|].
  intros c [<-|[<-|[]]]; [reflexivity|]. vm_compute. discriminate.
Qed.
