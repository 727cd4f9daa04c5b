(** C18: the delay object. *)
From Verif Require Import DelayModel DelaySpec DelayProofs.
From Coq Require Import Permutation.

(** Whatever sequence of messages, flushes, clears, delay changes, foreign schedulings and timer
    expirations: the object behaves as a bag of due times, its entries in the shared queue are
    exactly the pending messages, its output is exactly what the specification emits; nothing is
    ever undefined, and the only assertion that can trip is the one on a ninth pending message. *)
Theorem delay_fires_once :
  forall (M : Type) own fresh hook d (ops : list (delay_op M)),
  (forall l, ~ In (fresh l) l) -> hook_quiet own hook ->
  match delay_run own fresh hook (cDelay_init d) ops with
  | Ok s => exists p, spec_run (mkSpec [] d []) ops (mkSpec p (d_delay s) (d_out s))
              /\ Permutation (pending own s) p
  | AssertFail => exists ops1 now m ops2 s1, ops = ops1 ++ Arrive now m :: ops2 /\
              delay_run own fresh hook (cDelay_init d) ops1 = Ok s1 /\ length (pending own s1) = 8%nat
  | UB => False
  end.
Proof.
  intros M own fresh hook d ops F Q.
  pose proof (run_spec own fresh F hook Q ops (cDelay_init d) [] (Inv_init own d) (Permutation_refl _)) as H.
  exact H.
Qed.

Definition pick (l : list Z) : Z := fold_right Z.max 0 l + 1.
Lemma pick_fresh : forall l, ~ In (pick l) l.
Proof.
  assert (H : forall l x, In x l -> x <= fold_right Z.max 0 l).
  { induction l as [|y l IH]; cbn; intros x A; [tauto|]. destruct A as [A|A]; [lia|]. specialize (IH _ A). lia. }
  intros l A. apply H in A. unfold pick in A. lia.
Qed.
Definition quiet (s : dstate Z) (t m : Z) : dstate Z := fst (schedule pick s (t + 100) 2 m).
(** Hypotheses are satisfiable by a real downstream: one that schedules elsewhere. *)
Example quiet_ok : hook_quiet 1 quiet.
Proof. apply (schedule_quiet 1 pick 2 100); [exact pick_fresh|lia|lia]. Qed.
Example delay_example :
  exists s, delay_run 1 pick quiet (cDelay_init 50) [Arrive 0 7; Arrive 10 8; Other 55 2 3; Tick; SetDelay 5; Arrive 52 9; Flush 56; Arrive 60 4; Clear] = Ok s
    /\ d_out s = [(50, 7); (56, 9); (56, 8)] /\ pending 1 s = [].
Proof. eexists. split; [vm_compute; reflexivity|]. split; reflexivity. Qed.

(** The full claim is false with feedback.  Outlet wired back to the inlet (a metronome): after a
    flush the rescheduled message is no longer tracked, a clear does not cancel it and it fires. *)
Definition feedback (s : dstate Z) (t m : Z) : dstate Z :=
  match on_message 1 pick s t m with Ok s' => s' | _ => s end.
Theorem delay_clear_after_flush_feedback_refuted :
  exists s, delay_run 1 pick feedback (cDelay_init 50) [Arrive 0 7; Flush 10; Clear; Tick] = Ok s
    /\ d_out s = [(10, 7); (60, 7)].
Proof. eexists. split; [vm_compute; reflexivity|reflexivity]. Qed.
(** Without the flush the same clear works. *)
Example delay_clear_feedback_ok :
  exists s, delay_run 1 pick feedback (cDelay_init 50) [Arrive 0 7; Tick; Clear; Tick] = Ok s
    /\ d_out s = [(50, 7)].
Proof. eexists. split; [vm_compute; reflexivity|reflexivity]. Qed.

(** Flush rewrites the timestamp of a queued message in place before running what is downstream,
    so a message scheduled there can land behind later ones: the shared queue is no longer in
    time order, although it was before and nothing was scheduled into the past. *)
Theorem delay_flush_breaks_queue_order_refuted :
  exists s1 s2, delay_run 1 pick quiet (cDelay_init 200) [Other 100 2 1; Other 180 2 2; Arrive 0 7] = Ok s1
    /\ in_order (d_queue s1) /\ map q_ts (d_queue s1) = [100; 180; 200]
    /\ delay_step 1 pick quiet s1 (Flush 50) = Ok s2
    /\ map q_ts (d_queue s2) = [100; 180; 150].
Proof.
  eexists. eexists. split; [vm_compute; reflexivity|]. split; [|split; [reflexivity|split; [vm_compute; reflexivity|reflexivity]]].
  intros q1 a q2 b q3 E. cbn [d_queue] in E.
  destruct q1 as [|x1 [|x2 [|x3 q1]]]; [| | |destruct q1; discriminate];
  (destruct q2 as [|y1 [|y2 q2]]; [| |]); cbn in E; try discriminate; injection E; intros; subst; cbn; try lia;
  try (destruct q2; discriminate).
Qed.

Print Assumptions delay_fires_once.
Print Assumptions delay_clear_after_flush_feedback_refuted.
Print Assumptions delay_flush_breaks_queue_order_refuted.
