(** Property theorems C43 and C44 about the host queues (vocabulary in HostSpec.v). *)
From Verif Require Import HostModel HostSpec MessageSpec PipeProofs2 HostProofs HostProofs2 HostProofs3.
From Verif Require ProcessModel ProcessSpec.
Require Import ZifyBool.

(** C43: for every queue size and every interleaving of sending calls with the reader, the reader
    finds the accepted calls in the order they were made, each with its receiver, the time
    clock + delay computed at the call, and its values; nothing else; and if it keeps reading it
    finds all of them.  No undefined behaviour and no failed assertion on the way. *)
Theorem host_messages_in_order : forall base junk n ls,
  0 < base < 18446744073709000000 -> 4 <= n < 4294967296 -> Forall (sendable base) (hcalls ls) ->
  exists s0 s accepted, hLp_init junk n = Ok s0 /\ hrun s0 ls = Ok s /\ subseq accepted (hcalls ls) /\
    Forall2 (fun r c => call_record c = Ok r) (sent s) accepted /\
    prefix (map (found base) (recv s)) (map meaning accepted) /\ Forall (fun r => 32 <= zlen r) (recv s) /\
    exists k s', run s (repeat Cons k) = Ok s' /\ map (found base) (recv s') = map meaning accepted.
Proof. intros base junk n ls Hb Hn HS. exact (host_queue_aux base Hb junk n ls Hn HS). Qed.
Print Assumptions host_messages_in_order.

(** C43: process() hands the records it found to the scheduler in that order: for each record one
    entry per receiver of the name, with the time and the message of the record. *)
Theorem records_scheduled_in_order : forall (P M : Type) (receivers : Z -> list Z) (recs : list (Z * Z * M)) (s : ProcessModel.pstate P M),
  map (fun e => (ProcessModel.p_ts e, ProcessModel.p_dest e, ProcessModel.p_msg e))
      (ProcessSpec.scheduled (snd (ProcessModel.drain_inq receivers s recs))) =
  flat_map (fun '(h, ts, m) => map (fun d => (ts, d, m)) (receivers h)) recs.
Proof.
  intros P M receivers recs. induction recs as [|[[h ts] m] recs IH]; intros s; [reflexivity|].
  cbn [ProcessModel.drain_inq flat_map]. unfold ProcessModel.schedule_for_receiver.
  assert (G : forall l (s : ProcessModel.pstate P M), let (s1, ev) := ProcessModel.do_actions s (map (fun d => ProcessModel.ASched ts d m) l) in
    map (fun e => (ProcessModel.p_ts e, ProcessModel.p_dest e, ProcessModel.p_msg e)) (ProcessSpec.scheduled ev) = map (fun d => (ts, d, m)) l).
  { clear. induction l as [|d l IH]; intros s; cbn [map ProcessModel.do_actions]; [reflexivity|].
    cbn [ProcessModel.do_action ProcessModel.schedule].
    match goal with |- context [ProcessModel.do_actions ?s1 (map _ l)] => specialize (IH s1); destruct (ProcessModel.do_actions s1 (map (fun d => ProcessModel.ASched ts d m) l)) as [s2 ev] end.
    cbn [app]. cbn [ProcessSpec.scheduled flat_map app map ProcessModel.p_ts ProcessModel.p_dest ProcessModel.p_msg]. f_equal. exact IH. }
  specialize (G (receivers h) s). destruct (ProcessModel.do_actions s _) as [s1 ev1]. specialize (IH s1).
  destruct (ProcessModel.drain_inq receivers s1 recs) as [s2 ev2]. cbn [snd] in *. unfold ProcessSpec.scheduled in *. rewrite flat_map_app, map_app, G, IH. reflexivity.
Qed.
Print Assumptions records_scheduled_in_order.

(** C44, what holds: every session of sends and reads on an output queue either returns the accepted
    sends in order, each with its destination and its message, or stops in one of two precisely
    described ways: the caller's block is smaller than the record (message + 8 bytes), or the
    record ends less than 8 bytes before the end of the queue's memory and the copy reads past it. *)
Theorem sent_messages_returned : forall base junk n ls,
  0 < base < 18446744073709000000 -> 4 <= n < 4294967296 -> Forall (sendable base) (ocalls ls) ->
  exists s0, hLp_init junk n = Ok s0 /\
  match osession s0 ls with
  | Ok (s, res) => exists accepted, subseq accepted (ocalls ls) /\ Forall2 (fun r c => call_record c = Ok r) (sent s) accepted /\
       Forall2 returned res (firstn (length res) accepted)
  | AssertFail => exists ls1 maxlen ls2 s1 res1 r, ls = ls1 ++ OGet maxlen :: ls2 /\ osession s0 ls1 = Ok (s1, res1) /\ next_record s1 r /\ maxlen < zlen r
  | UB => exists ls1 maxlen ls2 s1 res1 r, ls = ls1 ++ OGet maxlen :: ls2 /\ osession s0 ls1 = Ok (s1, res1) /\ next_record s1 r /\ zlen r <= maxlen /\
       n < next_pos s1 + 4 + zlen r + 8
  end.
Proof. intros base junk n ls Hb Hn HS. exact (out_queue_aux base Hb junk n ls Hn HS). Qed.
Print Assumptions sent_messages_returned.

(** * Concrete calls *)
Definition w_mem : bytes := [7; 97; 98; 99; 0; 0; 0; 0].
Definition floats (k : nat) : call :=
  let m := mkMsg 5 (Z.of_nat k) (8 + 16 * Z.of_nat k) (repeat (Some (Flt 1065353216)) k) in
  mkCall w_mem (repeat 0 (16 + 16 * k)) 1234 100 None m.
Definition symbol_call : call := mkCall w_mem (repeat 0 36) 77 100 (Some 441) (mkMsg 0 1 28 [Some (Sym 1)]).
Definition do_call (c : call) (k : nat) : list olabel := OCall c :: repeat OProd k.
Definition do_hcall (c : call) (k : nat) : list hlabel := HCall c :: repeat HProd k.

Lemma floats_sendable k : (0 < k < 100)%nat -> sendable 8 (floats k).
Proof.
  intros Hk. unfold floats, sendable. cbn [c_mem c_old c_hash c_msg m_nb m_n m_el].
  split; [reflexivity|]. split; [unfold zlen, pair_size; rewrite repeat_length; cbn [m_nb]; lia|]. split; [lia|].
  split; [unfold msg_ok; cbn [m_ts m_n m_nb m_el]; split; [lia|split; [lia|split; [lia|]]]; apply Forall_forall; intros x Hx; apply repeat_spec in Hx; subst x; cbn; lia|].
  split; [Z.div_mod_to_equations; lia|]. exists (repeat (VFloat 1065353216) k). split.
  - unfold values. cbn [m_n m_el]. assert ((0 <? Z.of_nat k) && (Z.of_nat k <=? zlen (repeat (Some (Flt 1065353216)) k)) = true) as -> by (unfold zlen; rewrite repeat_length; lia).
    rewrite firstn_all2 by (rewrite repeat_length; lia). clear Hk. induction k as [|k IH]; [reflexivity|]. cbn [repeat values_of value_of]. rewrite IH. reflexivity.
  - unfold needed. unfold zlen. rewrite repeat_length. assert (fold_right Z.add 0 (map text_bytes (repeat (VFloat 1065353216) k)) = 0) as ->; [|lia].
    clear. induction k as [|k IH]; [reflexivity|]. cbn [repeat map fold_right text_bytes]. rewrite IH. reflexivity.
Qed.
Lemma symbol_sendable : sendable 8 symbol_call.
Proof.
  unfold sendable. split; [reflexivity|]. split; [reflexivity|]. split; [cbn; lia|]. split; [|split; [reflexivity|]].
  - split; [cbn; lia|]. split; [cbn; lia|]. split; [cbn; lia|]. repeat constructor.
  - exists [VSymbol [97; 98; 99]]. split; [reflexivity|]. vm_compute. discriminate.
Qed.

(** The hypotheses of [host_messages_in_order] are met by a symbol and a float message, which are both found. *)
Example host_example :
  let ls := do_hcall symbol_call 60 ++ do_hcall (floats 2) 60 ++ repeat HCons 100 in
  Forall (sendable 8) (hcalls ls) /\
  exists s, hrun init1024 ls = Ok s /\
    map (found 8) (recv s) = [Some (77, 541, [VSymbol [97; 98; 99]]); Some (1234, 5, [VFloat 1065353216; VFloat 1065353216])].
Proof.
  intros ls. split.
  - change (hcalls ls) with [symbol_call; floats 2]. constructor; [apply symbol_sendable|constructor; [apply floats_sendable; lia|constructor]].
  - eexists. split; vm_compute; reflexivity.
Qed.

(** C44 is false: reading three messages of twenty numbers from a queue of 1024 bytes, the third
    read goes past the memory of the queue. *)
Theorem sent_message_overread_refuted :
  exists ls, Forall (sendable 8) (ocalls ls) /\ Forall (fun l => match l with OGet maxlen => maxlen = 4096 | _ => True end) ls /\
    osession init1024 ls = UB.
Proof.
  exists (do_call (floats 20) 360 ++ do_call (floats 20) 360 ++ do_call (floats 20) 360 ++ [OGet 4096; OGet 4096; OGet 4096]).
  split; [|split].
  - change (ocalls _) with [floats 20; floats 20; floats 20]. assert (H : sendable 8 (floats 20)) by (apply floats_sendable; lia). exact (Forall_cons _ H (Forall_cons _ H (Forall_cons _ H (Forall_nil _)))).
  - unfold do_call. repeat rewrite Forall_app. repeat split; repeat constructor.
  - vm_compute. reflexivity.
Qed.
Print Assumptions sent_message_overread_refuted.

(** C44 is false: a block of exactly the size of the message is refused. *)
Theorem sent_message_exact_block_refuted :
  sendable 8 (floats 1) /\ m_nb (c_msg (floats 1)) = 24 /\
  osession init1024 (do_call (floats 1) 60 ++ [OGet 24]) = AssertFail.
Proof. split; [apply floats_sendable; lia|]. split; [reflexivity|]. vm_compute. reflexivity. Qed.
Print Assumptions sent_message_exact_block_refuted.

(** C44 is false: the symbol of a returned message points into the queue (byte 32 of the record that
    was already consumed, queue offset 36), not into the returned block, and later sends overwrite
    the text there. *)
Theorem sent_symbol_stale_refuted :
  exists s1 out m' s2 more, osession init1024 (do_call symbol_call 60 ++ [OGet 4096]) = Ok (s1, [(77, out)]) /\
    load_msg out 0 = Ok m' /\ get_elem m' 0 = Ok (Sym (8 + 32)) /\
    map (buf s1) [36; 37; 38; 39] = [97; 98; 99; 0] /\
    Forall (sendable 8) (ocalls more) /\ osession s1 more = Ok (s2, []) /\ map (buf s2) [36; 37; 38; 39] = [0; 0; 0; 0].
Proof.
  eexists _, _, _, _, (concat (repeat (do_call (floats 1) 60) 28)).
  split; [vm_compute; reflexivity|]. split; [vm_compute; reflexivity|]. split; [vm_compute; reflexivity|].
  split; [vm_compute; reflexivity|]. split; [|split; vm_compute; reflexivity].
  assert (sendable 8 (floats 1)) by (apply floats_sendable; lia). change (ocalls _) with (repeat (floats 1) 28).
  apply Forall_forall. intros x Hx. apply repeat_spec in Hx. subst x. assumption.
Qed.
Print Assumptions sent_symbol_stale_refuted.
