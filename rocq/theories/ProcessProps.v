(** Property theorems C09, C10, C11 about rendering (process() in Heavy_NAME.cpp).

    [session ... s ops] runs host sends and render calls; [process ... s n] one render call of [n]
    frames, returning the new state and the trace of events (ProcessSpec.v reads traces).
    The patch ([handle], [dsp], [recv]) and the vector width are arbitrary. *)
From Verif Require Import ProcessModel ProcessSpec ProcessProofs ProcessProofs2.
From Coq Require Import Permutation Sorted.

(** C09: whatever the host did before, a render call of [n] frames (before the 32-bit clock wraps)
    of a causal patch
    - renders exactly the n / N vector blocks, in order;
    - schedules every host message for each of its receivers, in sending order, with the
      timestamp it was sent with, and nothing else up to the first delivery;
    - delivers in order of timestamp, then of scheduling, each message at most once; messages
      pending before plus messages scheduled = delivered + cancelled + still pending;
    - delivers a message before a block iff its timestamp is before the end of that block;
    - leaves exactly messages due at or after the new clock. *)
Theorem process_delivers_exactly_once_in_order :
  forall P M (handle : P -> pentry M -> P * list (action M)) dsp recv bang N fuel p ops s ev0 n s' ev,
  causal handle -> 0 < N -> 0 <= n ->
  session handle dsp recv bang N fuel (fresh p) ops = Some (s, ev0) ->
  s_clock s + n < 4294967296 ->
  process handle dsp recv bang N fuel s n = Some (s', ev) ->
  blocks ev = map (fun i => s_clock s + N * Z.of_nat i) (seq 0 (Z.to_nat (n / N))) /\
  s_clock s' = s_clock s + N * (n / N) /\
  (exists ev1 ev2, ev = ev1 ++ ev2 /\ delivered ev1 = [] /\ blocks ev1 = [] /\ cancelled ev1 = [] /\
     map (fun e => (p_ts e, p_dest e, p_msg e)) (scheduled ev1) =
       flat_map (fun r => map (fun d => (snd (fst r), d, snd r)) (recv (fst (fst r)))) (s_inq s) /\
     (0 < n / N -> match ev2 with EDeliver _ :: _ | EBlock _ :: _ => True | _ => False end)) /\
  StronglySorted due_before (delivered ev) /\
  StronglySorted due_before (s_pend s') /\
  Permutation (s_pend s ++ scheduled ev) (delivered ev ++ cancelled ev ++ s_pend s') /\
  (forall a t b, ev = a ++ EBlock t :: b ->
     Forall (fun e => p_ts e < t + N) (delivered a) /\ Forall (fun e => t + N <= p_ts e) (delivered b)) /\
  Forall (fun e => p_ts e < s_clock s') (delivered ev) /\
  (0 < n / N -> Forall (fun e => s_clock s' <= p_ts e) (s_pend s')).
Proof.
  intros P M handle dsp recv bang N fuel p ops s ev0 n s' ev Hc HN Hn Hs Hlim H.
  destruct (session_si handle dsp recv bang N Hc fuel ops (fresh p) s ev0 (fresh_si p) Hs) as (HI & Hclk).
  specialize (Hclk (Z.le_refl 0)).
  unfold process in H. pose proof (drain_inq_spec recv N (s_inq s) s HI) as HD.
  destruct (drain_inq recv s (s_inq s)) as [s1 ev1]. destruct HD as (HI1 & (Q1 & Q2) & C1 & P1 & Hc1 & Hp1 & Hi1 & S1).
  set (s2 := host_send s1 HV_BANG 0 bang) in *.
  destruct (run_blocks handle dsp N fuel (Z.to_nat (n / N)) s2) as [[s3 ev3]|] eqn:E; [|discriminate].
  injection H as <- <-.
  assert (Hq : 0 <= n / N) by (apply Z.div_pos; lia).
  assert (Hclk2 : s_clock s2 = s_clock s) by (unfold s2; cbn; exact Hc1).
  assert (Hmul : N * (n / N) <= n) by (apply Z.mul_div_le; lia).
  destruct (run_blocks_spec handle dsp recv N Hc HN fuel (Z.to_nat (n / N)) s2 s3 ev3 (host_send_si _ _ _ _ HI1)) as [R1 R2 R3 R4 R5 R6 R7 R8 R9 R10];
    [lia|rewrite Z2Nat.id by lia; lia|exact E|].
  rewrite Z2Nat.id in R6 by lia.
  assert (Hdel : delivered (ev1 ++ ev3) = delivered ev3) by (rewrite del_app, Q1; reflexivity).
  split; [|split; [|split; [|split; [|split; [|split; [|split; [|split]]]]]]].
  - rewrite blk_app, Q2, R5. cbn [app]. rewrite Hclk2.
    assert (G : forall k t j, starts N (t + N * Z.of_nat j) k = map (fun i => t + N * Z.of_nat i) (seq j k)).
    { clear. induction k as [|k IH]; intros t j; cbn [starts seq map]; [reflexivity|]. f_equal.
      rewrite <- (IH t (S j)). f_equal. lia. }
    specialize (G (Z.to_nat (n / N)) (s_clock s) 0%nat). rewrite <- G. f_equal. lia.
  - lia.
  - exists ev1, ev3. split; [reflexivity|]. split; [exact Q1|]. split; [exact Q2|]. split; [exact C1|]. split; [exact S1|].
    intros Hpos. destruct (Z.to_nat (n / N)) as [|k] eqn:Ek; [lia|]. cbn [run_blocks] in E.
    destruct (run_before handle fuel s2 (u32 (s_clock s2 + N))) as [[s4 ev4]|] eqn:E4; [|discriminate].
    destruct (run_blocks handle dsp N fuel k _) as [[s5 ev5]|]; [|discriminate]. injection E as <- <-.
    destruct fuel as [|fuel]; cbn [run_before] in E4; destruct (s_pend s2) as [|e rest].
    + injection E4 as <- <-. exact I.
    + destruct (p_ts e <? _); [discriminate|]. injection E4 as <- <-. exact I.
    + injection E4 as <- <-. exact I.
    + destruct (p_ts e <? _); [|injection E4 as <- <-; exact I].
      destruct (handle (s_patch s2) e) as [p' acts]. destruct (do_actions (set_patch s2 p') acts) as [s6 ev6].
      destruct (run_before handle fuel _ _) as [[s7 ev7]|]; [|discriminate]. injection E4 as <- <-. exact I.
  - rewrite Hdel. exact R2.
  - exact (si_sorted _ R1).
  - rewrite Hdel, sch_app, can_app, C1. cbn [app]. rewrite app_assoc, P1.
    change (s_pend s1) with (s_pend s2). exact R4.
  - intros a t b Hab. destruct (split_pre _ _ _ _ _ Q2 Hab) as (a' & -> & Ha').
    rewrite del_app, Q1. cbn [app]. exact (R10 a' t b Ha').
  - rewrite Hdel. exact R8.
  - intros Hpos. destruct R3 as [R3|R3]; [exact R3|lia].
Qed.
Print Assumptions process_delivers_exactly_once_in_order.

(** C09: over a whole session from a fresh context (as long as everything stays before time 2^32,
    and the patch has no per-render-call bang receiver), all deliveries of all render calls
    together are in order of timestamp and, on ties, of scheduling. *)
Theorem session_delivers_in_order :
  forall P M (handle : P -> pentry M -> P * list (action M)) dsp recv bang N fuel p ops s ev,
  causal handle -> 0 < N -> recv HV_BANG = [] ->
  Forall (fits (frames ops)) ops -> frames ops < 4294967296 ->
  session handle dsp recv bang N fuel (fresh p) ops = Some (s, ev) ->
  StronglySorted due_before (delivered ev).
Proof.
  intros P M handle dsp recv bang N fuel p ops s ev Hc HN Hb Hf Hl H.
  apply (session_sorted handle dsp recv bang N Hc HN Hb fuel (frames ops) ops (fresh p) s ev); try assumption.
  - apply fresh_si.
  - split; constructor.
  - cbn; lia.
  - cbn; lia.
Qed.
Print Assumptions session_delivers_in_order.

(** Without causality the claim fails: a handler that cancels the message being delivered makes
    the render loop drop the next message, which is never delivered and never cancelled. *)
Definition bad_handle (p : unit) (e : pentry Z) : unit * list (action Z) :=
  (p, if p_msg e =? 1 then [ACancel (p_id e)] else []).
Definition one_recv (h : Z) : list Z := if h =? HV_BANG then [] else [h].
Theorem process_self_cancel_refuted :
  exists s ev, session bad_handle (fun p => p) one_recv 0 4 10 (fresh tt)
                 [HSend 7 0 1; HSend 8 0 2; HRender 16] = Some (s, ev) /\
  scheduled ev = [mkPE 0 0 7 1; mkPE 0 1 8 2] /\ delivered ev = [mkPE 0 0 7 1] /\
  cancelled ev = [mkPE 0 0 7 1] /\ s_pend s = [].
Proof. eexists _, _. split; [vm_compute; reflexivity|]. vm_compute. auto. Qed.
Print Assumptions process_self_cancel_refuted.

(** The hypotheses of the theorems above are met by a patch that answers each message above 1
    with a delayed smaller one. *)
Definition echo (p : unit) (e : pentry Z) : unit * list (action Z) :=
  (p, if 1 <? p_msg e then [ASched (p_ts e + 5) 9 (p_msg e - 1)] else []).
Example process_example :
  causal echo /\
  let ops := [HSend 7 3 3; HSend 8 0 1; HRender 8; HSend 7 1 2; HRender 20] in
  Forall (fits (frames ops)) ops /\ frames ops < 4294967296 /\
  exists s ev, session echo (fun p => p) one_recv 0 4 10 (fresh tt) ops = Some (s, ev) /\
  delivered ev = [mkPE 0 1 8 1; mkPE 3 0 7 3; mkPE 8 2 9 2; mkPE 9 3 7 2; mkPE 13 4 9 1; mkPE 14 5 9 1].
Proof.
  split.
  { intros p e a H. cbn in H. destruct (1 <? p_msg e); cbn in H; [|contradiction].
    destruct H as [<-|[]]. lia. }
  cbn [frames]. split; [repeat constructor; cbn; lia|]. split; [lia|].
  eexists _, _. split; vm_compute; reflexivity.
Qed.

(** C10 is false: after 2^32 - 8 frames a message sent for now and one sent for 16 samples later
    are both delivered in the first block, the later one first. *)
Theorem process_clock_wrap_order_refuted :
  exists s1 ev1 s2 ev2,
  session echo (fun p => p) one_recv 0 4 10 (fresh tt)
    [HRender 2147483640; HRender 2147483640; HRender 8] = Some (s1, ev1) /\
  s_clock s1 = 4294967288 /\
  session echo (fun p => p) one_recv 0 4 10 s1 [HSend 7 0 1; HSend 8 16 0; HRender 4] = Some (s2, ev2) /\
  delivered ev2 = [mkPE 8 1 8 0; mkPE 4294967288 0 7 1].
Proof.
  destruct (process_none echo (fun p => p) one_recv 0 4 10 (fresh tt) 2147483640) as (a & ea & A & A1 & A2 & A3 & A4 & _);
    [lia|lia|cbn; lia|cbn; lia|constructor|constructor|reflexivity|].
  cbn [fresh s_clock s_pend s_next] in A1, A2, A3. 
  destruct (process_none echo (fun p => p) one_recv 0 4 10 a 2147483640) as (b & eb & B & B1 & B2 & B3 & B4 & _);
    [lia|lia|lia|lia|rewrite A2; constructor|rewrite A4; constructor; [reflexivity|constructor]|reflexivity|].
  destruct (process_none echo (fun p => p) one_recv 0 4 10 b 8) as (c & ec & C & C1 & C2 & C3 & C4 & _);
    [lia|lia|lia|lia|rewrite B2, A2; constructor|rewrite B4; constructor; [reflexivity|constructor]|reflexivity|].
  assert (Ec : c = mkPS 4294967288 [] 0 [(HV_BANG, 4294967280, 0)] tt).
  { destruct c as [k q nx iq u]; cbn [s_clock s_pend s_next s_inq] in C1, C2, C3, C4. destruct u.
    f_equal; [lia|congruence|lia|].
    rewrite C4. replace (s_clock b + 0) with 4294967280 by lia. reflexivity. }
  exists c. eexists. eexists. eexists. split; [cbn [session]; rewrite A, B, C; reflexivity|].
  split; [rewrite Ec; reflexivity|]. rewrite Ec.
  split; [cbn [session]; unfold process; cbn [host_send s_inq app s_clock s_pend s_next s_patch drain_inq schedule_for_receiver]; vm_compute; reflexivity|vm_compute; reflexivity].
Qed.
Print Assumptions process_clock_wrap_order_refuted.

(** C10, second failure: a message due in the block that ends at time 2^32 is not delivered in
    that block, nor in the next 2^31 - 8 frames. *)
Theorem process_clock_wrap_stuck_refuted :
  exists s1 ev1 s2 ev2,
  session echo (fun p => p) one_recv 0 4 10 (fresh tt)
    [HRender 2147483640; HRender 2147483640; HRender 8] = Some (s1, ev1) /\
  s_clock s1 = 4294967288 /\
  session echo (fun p => p) one_recv 0 4 10 s1 [HSend 7 4 1; HRender 8; HRender 2147483640] = Some (s2, ev2) /\
  s_clock s2 = 2147483640 /\ delivered ev2 = [] /\ s_pend s2 = [mkPE 4294967292 0 7 1].
Proof.
  destruct (process_none echo (fun p => p) one_recv 0 4 10 (fresh tt) 2147483640) as (a & ea & A & A1 & A2 & A3 & A4 & _);
    [lia|lia|cbn; lia|cbn; lia|constructor|constructor|reflexivity|].
  cbn [fresh s_clock s_pend s_next] in A1, A2, A3. 
  destruct (process_none echo (fun p => p) one_recv 0 4 10 a 2147483640) as (b & eb & B & B1 & B2 & B3 & B4 & _);
    [lia|lia|lia|lia|rewrite A2; constructor|rewrite A4; constructor; [reflexivity|constructor]|reflexivity|].
  destruct (process_none echo (fun p => p) one_recv 0 4 10 b 8) as (c & ec & C & C1 & C2 & C3 & C4 & _);
    [lia|lia|lia|lia|rewrite B2, A2; constructor|rewrite B4; constructor; [reflexivity|constructor]|reflexivity|].
  assert (Ec : c = mkPS 4294967288 [] 0 [(HV_BANG, 4294967280, 0)] tt).
  { destruct c as [k q nx iq u]; cbn [s_clock s_pend s_next s_inq] in C1, C2, C3, C4. destruct u.
    f_equal; [lia|congruence|lia|].
    rewrite C4. replace (s_clock b + 0) with 4294967280 by lia. reflexivity. }
  set (d := mkPS 0 [mkPE 4294967292 0 7 1] 1 [(HV_BANG, 4294967288, 0)] tt : pstate unit Z).
  destruct (process_none echo (fun p => p) one_recv 0 4 10 d 2147483640) as (e & ee & E & E1 & E2 & E3 & E4 & E5);
    [lia|lia|cbn; lia|cbn; lia|constructor; [cbn; lia|constructor]|constructor; [reflexivity|constructor]|reflexivity|].
  assert (D : exists ed, process echo (fun p => p) one_recv 0 4 10 (host_send c 7 4 1) 8 = Some (d, ed) /\ delivered ed = []).
  { rewrite Ec. eexists. split; [|shelve].
    unfold process; cbn [host_send s_inq app s_clock s_pend s_next s_patch drain_inq schedule_for_receiver]. vm_compute; reflexivity.
    Unshelve. vm_compute. reflexivity. }
  destruct D as (ed & D & D5).
  exists c. eexists. exists e. eexists. split; [cbn [session]; rewrite A, B, C; reflexivity|].
  split; [rewrite Ec; reflexivity|].
  split; [cbn [session]; rewrite D, E; reflexivity|].
  split; [rewrite E1; reflexivity|]. split; [|rewrite E2; reflexivity].
  rewrite !del_app, D5, E5. reflexivity.
Qed.
Print Assumptions process_clock_wrap_stuck_refuted.

(** C11: rendering [a + b] frames equals rendering [a] and then [b] frames (a multiple of the
    vector width): same events, time, pending messages and patch state, for every patch without a
    per-render-call bang receiver, from every state (even across the clock wrap). *)
Theorem process_split :
  forall P M (handle : P -> pentry M -> P * list (action M)) dsp recv bang N fuel s a b,
  0 < N -> 0 <= a -> 0 <= b -> a mod N = 0 -> recv HV_BANG = [] ->
  observe (session handle dsp recv bang N fuel s [HRender (a + b)]) =
  observe (session handle dsp recv bang N fuel s [HRender a; HRender b]).
Proof.
  intros. rewrite <- process_split_aux by assumption. cbn [session].
  destruct (process _ _ _ _ _ _ _ _) as [[s1 e1]|]; [|reflexivity]. cbn [observe]. rewrite app_nil_r. reflexivity.
Qed.
Print Assumptions process_split.

(** C11 for control-only patches: any split. *)
Theorem process_nodsp_split :
  forall P M (handle : P -> pentry M -> P * list (action M)) recv bang f1 f2 s a b s1 e1 s2 e2,
  0 <= a -> 0 <= b -> 0 <= s_clock s -> s_clock s + a + b < 4294967296 -> recv HV_BANG = [] ->
  process_nodsp handle recv bang f1 s a = Some (s1, e1) ->
  process_nodsp handle recv bang f2 s1 b = Some (s2, e2) ->
  exists s', process_nodsp handle recv bang (f1 + f2) s (a + b) = Some (s', e1 ++ e2) /\
  s_clock s' = s_clock s2 /\ s_pend s' = s_pend s2 /\ s_next s' = s_next s2 /\ s_patch s' = s_patch s2.
Proof.
  intros P M handle recv bang f1 f2 s a b s1 e1 s2 e2 Ha Hb H0 Hl Hr H1 H2.
  apply (process_nodsp_split_aux handle recv bang f1 f2 s a b s1 e1 s2 e2); assumption.
Qed.
Print Assumptions process_nodsp_split.

(** C11 is false for a patch that uses the per-block bang: it gets one bang per render call. *)
Theorem process_split_refuted :
  exists r1 r2,
  session (fun (p : unit) (e : pentry Z) => (p, [])) (fun p => p) (fun h => [h]) 0 4 10 (fresh tt) [HRender 8; HRender 8] = Some r1 /\
  session (fun (p : unit) (e : pentry Z) => (p, [])) (fun p => p) (fun h => [h]) 0 4 10 (fresh tt) [HRender 8; HRender 4; HRender 4] = Some r2 /\
  length (delivered (snd r1)) = 1%nat /\ length (delivered (snd r2)) = 2%nat.
Proof. eexists _, _. split; [vm_compute; reflexivity|]. split; [vm_compute; reflexivity|]. vm_compute. auto. Qed.
Print Assumptions process_split_refuted.
