(** Property theorems C14-C17 about messages (vocabulary in MessageSpec.v). *)
From Verif Require Import MessageModel MessageSpec MessageProofs MessageProofs2.
Require Import ZifyBool.

(** C14: setting element [i] of a message succeeds for every index inside it; reading it back gives
    what was written, every other element, the timestamp and the element count are unchanged.
    An index past the end trips the assertion. *)
Theorem message_read_back : forall mem m o,
  m_n m <= zlen (m_el m) -> (forall i p, o = SSymbol i p -> exists s, cstr mem p = Ok s) ->
  (0 <= op_index o < m_n m ->
    exists m', do_set mem m o = Ok m' /\
      get_elem m' (op_index o) = Ok (op_elem o) /\
      (forall j, j <> op_index o -> get_elem m' j = get_elem m j) /\
      m_ts m' = m_ts m /\ m_n m' = m_n m) /\
  (m_n m <= op_index o -> do_set mem m o = AssertFail).
Proof.
  intros mem m o Hcap Hs. split.
  - intros Hi. destruct (do_set_ok mem m o Hi Hcap Hs) as (m' & H). exists m'. split; [exact H|].
    apply do_set_inv in H as (A1 & A2 & A3 & A4 & A5 & A6 & A7).
    split; [|split; [|split; assumption]].
    + unfold get_elem. rewrite A5, A7. assert (op_index o <? m_n m = true) as -> by lia.
      assert (0 <=? op_index o = true) as -> by lia. rewrite set_nth_same by (unfold zlen in A2; lia). reflexivity.
    + intros j Hj. unfold get_elem. rewrite A5, A7. destruct (j <? m_n m); [|reflexivity].
      destruct (0 <=? j) eqn:E; [|reflexivity]. rewrite set_nth_other by lia. reflexivity.
  - intros Hi. assert (op_index o <? m_n m = false) as E by lia.
    destruct o; cbn [do_set op_index] in *; unfold msg_setBang, msg_setFloat, msg_setHash, msg_setSymbol, set_elem; rewrite E; reflexivity.
Qed.
Print Assumptions message_read_back.

(** C14 for copying one element from another message. *)
Theorem message_element_copied : forall mem n i_n m i_m e,
  get_elem m i_m = Ok e -> (forall p, e = Sym p -> exists s, cstr mem p = Ok s) ->
  0 <= i_n < m_n n -> m_n n <= zlen (m_el n) ->
  exists n', msg_setElementToFrom mem n i_n m i_m = Ok n' /\ get_elem n' i_n = Ok e /\
    (forall j, j <> i_n -> get_elem n' j = get_elem n j).
Proof.
  intros mem n i_n m i_m e He Hs Hi Hcap. unfold msg_setElementToFrom. rewrite He. cbn [obind].
  assert (G : forall o, op_elem o = e -> op_index o = i_n -> exists n', do_set mem n o = Ok n' /\ get_elem n' i_n = Ok e /\
    (forall j, j <> i_n -> get_elem n' j = get_elem n j)).
  { intros o Ho Hoi. destruct (message_read_back mem n o Hcap) as (R & _).
    - intros i p ->. cbn in Ho. apply (Hs p). symmetry; exact Ho.
    - rewrite Hoi, Ho in R. destruct (R Hi) as (n' & R1 & R2 & R3 & _). exists n'. auto. }
  destruct e as [|b|p|h].
  - apply (G (SBang i_n)); reflexivity.
  - apply (G (SFloat i_n b)); reflexivity.
  - apply (G (SSymbol i_n p)); reflexivity.
  - apply (G (SHash i_n h)); reflexivity.
Qed.
Print Assumptions message_element_copied.

(** C14 boundary: a negative index passes the assertion and is undefined behaviour. *)
Theorem message_negative_index_refuted : exists m, values [] m = Some [VBang] /\ get_elem m (-1) = UB.
Proof. exists (mkMsg 0 1 24 [Some Bang]). split; reflexivity. Qed.
Print Assumptions message_negative_index_refuted.

(** C15: copying a message with values [vs] into a buffer of [len] bytes at [a] (outside the
    strings of the source) yields, when [len] is at least the bytes needed, a message in the
    buffer with the same timestamp and values, whose strings lie in the copy, and only the
    needed bytes are written; when [len] is smaller, the assertion trips. *)
Theorem message_copy_deep : forall mem m a len vs,
  msg_ok m -> values mem m = Some vs -> 0 < a -> a + len <= zlen mem -> zlen mem < 18446744073709551616 ->
  symbols_outside mem m a (a + len) -> needed vs < 65536 ->
  if needed vs <=? len then
    exists mem' m', msg_copyToBuffer mem m a len = Ok mem' /\ load_msg mem' a = Ok m' /\
      m_ts m' = m_ts m /\ m_n m' = m_n m /\ m_nb m' = needed vs /\ values mem' m' = Some vs /\
      symbols_inside mem' m' (a + 8 + 16 * zlen vs) (a + needed vs) /\
      same_outside mem mem' a (a + needed vs)
  else msg_copyToBuffer mem m a len = AssertFail.
Proof.
  intros mem m a len vs Hok Hv Ha Hal H64 Hout H16. destruct (needed vs <=? len) eqn:E.
  - destruct (copy_ok mem m a len vs Hok Hv Ha Hal H64 Hout ltac:(lia) H16) as (mem' & m' & C1 & C2 & C3 & C4 & C5 & C6 & C7 & C8).
    exists mem', m'. repeat (split; [assumption|]). split; [|exact C8].
    assert (zlen vs = m_n m).
    { pose proof Hv as Hv'. apply values_spec in Hv' as (Hn & H). apply values_of_length in H. unfold zlen in *. rewrite H, firstn_length. lia. }
    replace (a + 8 + 16 * zlen vs) with (a + core (m_n m)) by (unfold core; lia). exact C7.
  - eapply copy_small; try eassumption. lia.
Qed.
Print Assumptions message_copy_deep.

(** C15: a message built by any sequence of setter calls reports a size that covers it, so that
    msg_copy (which allocates what the message reports) succeeds, as long as the text passed to
    the setters and the elements together stay below 2^16 bytes. *)
Theorem message_copy_allocates_enough : forall mem n ts ops m vs a,
  0 < n -> 0 <= ts < 4294967296 -> Forall op_ok ops ->
  (let! m0 := msg_init (Z.to_nat n) n ts in do_sets mem m0 ops) = Ok m ->
  values mem m = Some vs -> 8 + 16 * n + ops_text mem ops < 65536 ->
  0 < a -> a + m_nb m <= zlen mem -> zlen mem < 18446744073709551616 ->
  symbols_outside mem m a (a + m_nb m) ->
  exists mem' m', msg_copy mem m a = Ok mem' /\ load_msg mem' a = Ok m' /\
    m_ts m' = ts /\ m_nb m' = needed vs /\ needed vs <= m_nb m /\ values mem' m' = Some vs /\
    symbols_inside mem' m' (a + 8 + 16 * n) (a + needed vs) /\ same_outside mem mem' a (a + needed vs).
Proof.
  intros mem n ts ops m vs a Hn Hts Hok H Hv Hsz Ha Hal H64 Hout.
  pose proof (ops_text_nonneg mem ops) as Hop.
  unfold msg_init, msg_getCoreSize in H. assert (0 <? n = true) as E by lia. rewrite E in H. cbn [obind] in H.
  assert (Hc : core n = 8 + 16 * n) by (unfold core; lia).
  rewrite (u16_id n), (u16_id (core n)) in H by lia.
  destruct (do_sets_inv mem ops _ m H) as (B1 & B2 & B3 & B4 & B5 & B6); cbn [m_nb m_ts m_n m_el] in *; [lia|lia|exact Hok| |].
  { apply Forall_forall. intros x Hx. apply repeat_spec in Hx. subst x. exact I. }
  rewrite els_text_none in B5. rewrite repeat_length in B3.
  pose proof Hv as Hv'. apply values_spec in Hv' as (Hn2 & Hv'). rewrite B2 in *.
  assert (Hlen : zlen vs = n). { apply values_of_length in Hv'. unfold zlen in *. rewrite Hv', firstn_length. lia. }
  assert (Hneed : needed vs <= m_nb m).
  { rewrite needed_core by lia. rewrite (values_of_text _ _ _ Hv'), Hlen.
    pose proof (els_text_firstn mem (Z.to_nat n) (m_el m)). lia. }
  destruct (copy_ok mem m a (m_nb m) vs) as (mem' & m' & C1 & C2 & C3 & C4 & C5 & C6 & C7 & C8);
    [split; [lia|split; [lia|split; [lia|exact B6]]]|exact Hv|exact Ha|exact Hal|exact H64|exact Hout|exact Hneed|lia|].
  exists mem', m'. split; [exact C1|]. split; [exact C2|]. split; [congruence|]. split; [exact C5|].
  split; [exact Hneed|]. split; [exact C6|]. split; [|exact C8]. rewrite B2 in C7. replace (a + 8 + 16 * n) with (a + core n) by lia. exact C7.
Qed.
Print Assumptions message_copy_allocates_enough.

(** C15 is false for large text: a message with one symbol of 65535 characters reports 24 bytes,
    and copying it trips the assertion (with assertions disabled it would overrun the allocation). *)
Theorem message_large_symbol_refuted :
  exists mem m vs, (let! m0 := msg_init 1 1 0 in do_sets mem m0 [SSymbol 0 1]) = Ok m /\
  values mem m = Some vs /\ m_nb m = 24 /\ needed vs = 65560 /\
  (exists a, symbols_outside mem m a (a + 24) /\ a + 24 <= zlen mem /\ msg_copy mem m a = AssertFail).
Proof.
  set (s := repeat 97 (Z.to_nat 65535)).
  set (mem := 0 :: s ++ 0 :: repeat 0 24).
  assert (Hls : zlen s = 65535) by (unfold zlen, s; rewrite repeat_length; lia).
  assert (Hlm : zlen mem = 65561) by (unfold mem; rewrite zlen_cons, zlen_app, zlen_cons, Hls; reflexivity).
  assert (Hc : cstr mem 1 = Ok s).
  { apply cstr_spec. split; [lia|]. split.
    - apply Forall_forall. intros x Hx. unfold s in Hx. apply repeat_spec in Hx. lia.
    - split; [lia|]. intros j Hj. change (Z.to_nat 1) with 1%nat. cbn [Nat.add]. unfold mem. cbn [nth_error].
      change (0 :: repeat 0 24) with ([0] ++ repeat 0 24). rewrite app_assoc. rewrite nth_error_app1 by exact Hj. reflexivity. }
  set (m := mkMsg 0 1 24 [Some (Sym 1)]).
  assert (Hvv : values mem m = Some [VSymbol s]).
  { unfold values. change (values_of mem [Some (Sym 1)] = Some [VSymbol s]). cbn [values_of value_of]. rewrite Hc. reflexivity. }
  exists mem, m, [VSymbol s].
  split; [|split; [exact Hvv|split; [reflexivity|split]]].
  - unfold msg_init, msg_getCoreSize. cbn [Z.ltb Z.compare obind do_sets do_set repeat].
    unfold msg_setSymbol. rewrite (u16_id 1) by lia. cbn [m_n Z.ltb Z.compare Pos.compare Pos.compare_cont Z.eqb negb]. unfold set_elem.
    cbn [m_n m_el Z.ltb Z.leb Z.compare]. cbn [andb]. cbn [obind]. rewrite Hc. cbn [obind m_nb m_ts m_n m_el]. rewrite Hls. reflexivity.
  - unfold needed. cbn [map fold_right text_bytes]. rewrite Hls. reflexivity.
  - exists 65537. split; [|split].
    + intros p t [Hp|[]] Ht. injection Hp as <-. assert (t = s) by congruence. subst t. lia.
    + lia.
    + unfold msg_copy. apply (copy_small mem m 65537 24 [VSymbol s]); [exact Hvv|lia|lia| |].
      * intros p t [Hp|[]] Ht. injection Hp as <-. assert (t = s) by congruence. subst t. lia.
      * unfold needed. cbn [map fold_right text_bytes]. rewrite Hls. cbn. lia.
Qed.
Print Assumptions message_large_symbol_refuted.

(** C16: the format test answers (never reading past the format string) and answers true exactly
    when the format is the element types, one letter each. *)
Theorem message_has_format : forall mem m vs fmt,
  values mem m = Some vs -> Forall (fun c => c <> 0) fmt ->
  exists b, msg_hasFormat m fmt = Ok b /\ (b = true <-> fmt = map letter vs).
Proof.
  intros mem m vs fmt Hv Hf. unfold msg_hasFormat. pose proof Hv as Hv'. apply values_spec in Hv' as (Hn & _).
  apply (has_format_loop_spec mem m vs fmt Hv Hf (Z.to_nat (m_n m)) 0); [lia|lia|cbn; lia].
Qed.
Print Assumptions message_has_format.

(** C17: the text form is the printed elements separated by single spaces and one NUL; it fills
    exactly the allocated buffer ([junk n] is the n bytes returned by malloc). *)
Theorem message_text : forall fmt_g mem m vs junk,
  values mem m = Some vs -> (forall n, 0 <= n -> zlen (junk n) = n) ->
  msg_toString fmt_g mem m junk = Ok (spaced (map (printed fmt_g) vs) ++ [0]).
Proof. exact toString_spec. Qed.
Print Assumptions message_text.

(** A message "bang 1.0 ab 0xFF" in a 256 byte memory meets the hypotheses of all theorems. *)
Definition ex_mem : bytes := [7; 97; 98; 0] ++ repeat 9 252.
Definition ex_ops : list set_op := [SBang 0; SFloat 1 1065353216; SSymbol 2 1; SHash 3 255].
Definition ex_msg : msg := mkMsg 5 4 75 [Some Bang; Some (Flt 1065353216); Some (Sym 1); Some (Hsh 255)].
Example message_example :
  (let! m0 := msg_init 4 4 5 in do_sets ex_mem m0 ex_ops) = Ok ex_msg /\
  values ex_mem ex_msg = Some [VBang; VFloat 1065353216; VSymbol [97; 98]; VHash 255] /\
  msg_ok ex_msg /\ Forall op_ok ex_ops /\ 8 + 16 * 4 + ops_text ex_mem ex_ops < 65536 /\
  symbols_outside ex_mem ex_msg 8 83 /\
  msg_hasFormat ex_msg [98; 102; 115; 104] = Ok true /\ msg_hasFormat ex_msg [98; 102; 115] = Ok false /\
  (exists mem' m', msg_copy ex_mem ex_msg 8 = Ok mem' /\ load_msg mem' 8 = Ok m' /\
     values mem' m' = Some [VBang; VFloat 1065353216; VSymbol [97; 98]; VHash 255]).
Proof.
  split; [vm_compute; reflexivity|]. split; [vm_compute; reflexivity|].
  split; [unfold msg_ok; cbn; repeat split; try lia; repeat constructor; cbn; lia|].
  split; [repeat constructor; cbn; lia|]. split; [vm_compute; reflexivity|].
  split.
  { intros p s Hin Hc. cbn [ex_msg m_el In] in Hin. destruct Hin as [H|[H|[H|[H|[]]]]]; try discriminate. injection H as <-.
    vm_compute in Hc. injection Hc as <-. left. cbn. lia. }
  split; [vm_compute; reflexivity|]. split; [vm_compute; reflexivity|].
  eexists _, _. split; [vm_compute; reflexivity|]. split; [vm_compute; reflexivity|]. vm_compute; reflexivity.
Qed.
