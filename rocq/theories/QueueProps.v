(** Property theorems C04, C05, C06 about the message queue (HvMessageQueue.c on HvMessagePool.c).

    [q_run q ops] performs a client history and collects the results.  [correct S ops rs S']
    (QueueSpec.v) says that the results [rs] are those of a plain list of pending entries that
    starts as [S] and ends as [S']: [Schedule] inserts behind everything due no later, [Take]
    delivers the first entry, [Cancel] removes exactly the entries with that handle and
    destination, [Clear] removes all. *)
From Verif Require Import QueueModel QueueSpec PoolSpec QueueProofs2 QueueProofs4.
From Coq Require Import Sorted.

(** C04, C05: for every history of schedule, take, cancel, size and clear operations (any
    timestamps, any message bytes, wrong size claims included) the linked-list code never makes
    an invalid access and all its results are those of the list specification.  The only other
    possible outcome is a failed assertion of the message pool (see C08). *)
Theorem queue_refines_sorted_list :
  forall junkh junk kb ops, 0 < kb -> Forall wf_qop ops -> Forall no_clear_after ops ->
  exists q0, mq_init junkh junk kb = Ok q0 /\
  match q_run q0 ops with
  | Ok (q, rs) => exists S, correct [] ops rs S /\ mq_size q = Ok (zlen S) /\
        mq_peek_msg q = Ok (match S with [] => None | e :: _ => Some (e_img e, e_let e, e_send e) end)
  | AssertFail => True
  | UB => False
  end.
Proof.
  intros junkh junk kb ops Hkb Hwf Hnc.
  destruct (init_rep junkh junk kb Hkb) as (q0 & E & HR). exists q0. split; [exact E|].
  pose proof (run_spec ops q0 [] [] [] [] HR Hwf Hnc) as H.
  destruct (q_run q0 ops) as [[q rs]| |]; [|exact I|exact H].
  destruct H as (S & ns & ps & gl & Hc & HR'). exists S. split; [exact Hc|]. split.
  - exact (size_spec _ _ _ _ _ HR').
  - exact (peek_spec _ _ _ _ _ HR').
Qed.
Print Assumptions queue_refines_sorted_list.

(** C04, what the list specification means: pending entries are always in non-decreasing
    timestamp order ... *)
Theorem queue_pending_sorted :
  forall ops rs S, correct [] ops rs S -> StronglySorted (fun a b => e_ts a <= e_ts b) S.
Proof.
  intros ops rs S. assert (H0 : StronglySorted ets_le []) by constructor. revert H0. generalize (@nil entry).
  revert rs. induction ops as [|o ops IH]; intros rs S0 HS Hc.
  - destruct rs; [|destruct Hc]. cbn [correct] in Hc. subst. exact HS.
  - destruct o; destruct rs as [|r rs]; try destruct Hc; destruct r; cbn [correct] in *; try contradiction.
    + apply (IH rs (insert_stable (mkEntry img let_ send a) S0)); [apply insert_sorted; exact HS|tauto].
    + destruct S0 as [|e S0]; [apply (IH rs []); [exact HS|tauto]|].
      apply (IH rs S0); [inversion HS; assumption|tauto].
    + apply (IH rs (filter (fun e => negb (cancels handle send e)) S0)); [apply sorted_filter; exact HS|tauto].
    + apply (IH rs S0); [exact HS|tauto].
    + apply (IH rs []); [constructor|exact Hc].
    + apply (IH rs (filter (fun e => e_ts e <? timestamp) S0)); [apply sorted_filter; exact HS|exact Hc].
Qed.
Print Assumptions queue_pending_sorted.

(** ... and a newly scheduled entry comes behind all pending entries of the same timestamp and
    disturbs no other timestamp. *)
Theorem queue_ties_fifo :
  forall e S t,
  filter (fun x => e_ts x =? t) (insert_stable e S) =
  filter (fun x => e_ts x =? t) S ++ (if e_ts e =? t then [e] else []).
Proof.
  intros e S t. unfold insert_stable. rewrite filter_app. cbn [app filter].
  assert (F1 : forall (P Q : entry -> bool) l, filter P (filter Q l) = filter (fun x => P x && Q x) l).
  { intros P Q l. induction l as [|x l IH]; cbn [filter]; [reflexivity|].
    destruct (Q x) eqn:EQ; destruct (P x) eqn:EP; cbn [filter andb]; rewrite ?EP, ?IH; reflexivity. }
  rewrite !F1.
  assert (F2 : forall (P Q : entry -> bool) l, (forall x, P x = Q x) -> filter P l = filter Q l).
  { intros P Q l H. induction l as [|x l IH]; cbn [filter]; [reflexivity|]. rewrite H, IH. reflexivity. }
  destruct (Z.eqb_spec (e_ts e) t) as [E|E].
  - rewrite (F2 (fun x => (e_ts x =? t) && (e_ts x <=? e_ts e)) (fun x => e_ts x =? t)).
    + f_equal. rewrite (F2 _ (fun _ => false)).
      * assert (F3 : forall l, filter (fun _ : entry => false) l = []) by (induction l; auto). rewrite F3. reflexivity.
      * intros x. destruct (Z.eqb_spec (e_ts x) t); destruct (Z.ltb_spec (e_ts e) (e_ts x)); cbn; auto; lia.
    + intros x. destruct (Z.eqb_spec (e_ts x) t); destruct (Z.leb_spec (e_ts x) (e_ts e)); cbn; auto; lia.
  - rewrite app_nil_r. destruct (Z.ltb_spec (e_ts e) t).
    + rewrite (F2 _ (fun _ => false)).
      * assert (F3 : forall l, filter (fun _ : entry => false) l = []) by (induction l; auto). rewrite F3. cbn [app].
        apply F2. intros x. destruct (Z.eqb_spec (e_ts x) t); destruct (Z.ltb_spec (e_ts e) (e_ts x)); cbn; auto; lia.
      * intros x. destruct (Z.eqb_spec (e_ts x) t); destruct (Z.leb_spec (e_ts x) (e_ts e)); cbn; auto; lia.
    + rewrite (F2 (fun x => (e_ts x =? t) && (e_ts e <? e_ts x)) (fun _ => false)).
      * assert (F3 : forall l, filter (fun _ : entry => false) l = []) by (induction l; auto). rewrite F3. rewrite app_nil_r.
        apply F2. intros x. destruct (Z.eqb_spec (e_ts x) t); destruct (Z.leb_spec (e_ts x) (e_ts e)); cbn; auto; lia.
      * intros x. destruct (Z.eqb_spec (e_ts x) t); destruct (Z.ltb_spec (e_ts e) (e_ts x)); cbn; auto; lia.
Qed.
Print Assumptions queue_ties_fifo.

(** Sample messages of 24 bytes: timestamp [t] < 256, payload [v]. *)
Definition qmsg (t v : Z) : list Z := [t; 0; 0; 0; 1; 0; 24; 0] ++ repeat v 16.
Definition q_empty : queue := mkQueue 0 0 0 (mp_init (fun _ => 0) 1) (fun _ => mkNode 0 0 0 0 0) 0.

(** Hypotheses met, with insertion at both ends and in the middle, a tie and two cancellations. *)
Example queue_example :
  let ops := [Schedule 24 (qmsg 5 1) 0 7; Schedule 24 (qmsg 9 2) 0 7; Schedule 24 (qmsg 5 3) 0 8; Schedule 24 (qmsg 2 4) 0 8;
              Schedule 24 (qmsg 7 5) 1 9; Cancel 384 8; Cancel 416 7; Cancel 480 8; Size; Take; Take; Take; Take] in
  Forall wf_qop ops /\ Forall no_clear_after ops /\
  match q_run q_empty ops with Ok (_, rs) => rs | _ => [] end =
   [RHandle 480; RHandle 448; RHandle 416; RHandle 384; RHandle 352; RCancelled true; RCancelled false; RCancelled false; RSize 4;
    RTaken (Some (qmsg 5 1, 0, 7)); RTaken (Some (qmsg 5 3, 0, 8)); RTaken (Some (qmsg 7 5, 1, 9)); RTaken (Some (qmsg 9 2, 0, 7))].
Proof.
  cbn zeta. split; [|split].
  - repeat constructor; vm_compute; discriminate.
  - repeat constructor.
  - vm_compute. reflexivity.
Qed.

(** C06 is false: after clearing from time 5 on, the queue that should hold one message reports
    two, and the second delivery dereferences a NULL message. *)
Theorem queue_clear_after_refuted :
  exists ops, Forall wf_qop ops /\
   (exists q, q_run q_empty (ops ++ [Size]) = Ok q /\
      nth 3 (snd q) RDone = RSize 2 /\ forall S, ~ correct [] (ops ++ [Size]) (snd q) S) /\
   q_run q_empty (ops ++ [Take; Take]) = UB.
Proof.
  exists [Schedule 24 (qmsg 1 1) 0 7; Schedule 24 (qmsg 5 2) 0 7; ClearAfter 5].
  split; [|split].
  - repeat constructor; vm_compute; discriminate.
  - destruct (q_run q_empty ([Schedule 24 (qmsg 1 1) 0 7; Schedule 24 (qmsg 5 2) 0 7; ClearAfter 5] ++ [Size])) as [[q rs]| |] eqn:E.
    + exists (q, rs). split; [reflexivity|]. cbn [snd].
      assert (Ers : rs = [RHandle 480; RHandle 448; RDone; RSize 2]).
      { assert (H : match q_run q_empty ([Schedule 24 (qmsg 1 1) 0 7; Schedule 24 (qmsg 5 2) 0 7; ClearAfter 5] ++ [Size]) with Ok (_, r) => r | _ => [] end
                    = [RHandle 480; RHandle 448; RDone; RSize 2]) by (vm_compute; reflexivity).
        rewrite E in H. exact H. }
      subst rs. split; [reflexivity|]. intros S. cbn [app correct]. intros (_ & _ & H & _). vm_compute in H. discriminate.
    + exfalso. assert (H : match q_run q_empty ([Schedule 24 (qmsg 1 1) 0 7; Schedule 24 (qmsg 5 2) 0 7; ClearAfter 5] ++ [Size]) with Ok _ => true | _ => false end = true)
        by (vm_compute; reflexivity). rewrite E in H. discriminate.
    + exfalso. assert (H : match q_run q_empty ([Schedule 24 (qmsg 1 1) 0 7; Schedule 24 (qmsg 5 2) 0 7; ClearAfter 5] ++ [Size]) with Ok _ => true | _ => false end = true)
        by (vm_compute; reflexivity). rewrite E in H. discriminate.
  - vm_compute. reflexivity.
Qed.
Print Assumptions queue_clear_after_refuted.
