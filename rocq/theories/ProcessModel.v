(** Model of the render call of a generated patch:
    /repo/hvcc/generators/ir2c/templates/Heavy_NAME.cpp:178-267 (process) and 95-107
    (scheduleMessageForReceiver), HeavyContext.cpp:114-148 (sendMessageToReceiver, cancelMessage,
    scheduleMessageForObject).

    The message queue is the sorted list of QueueSpec (justified by
    QueueProps.queue_refines_sorted_list); the incoming pipe is the list of its unread records
    (justified by PipeProps.pipe_fifo_lossless).  Pending entries carry a serial number [p_id], given in
    scheduling order; a handle for cancelling is that number.  (In C the handle is the pool address,
    unique among pending messages but reused later; the stale-handle case is outside this model.)

    The patch is arbitrary: [handle] is what a receiver's sendMessage function does (it changes the
    patch state and schedules / cancels messages), [dsp] is the signal code of one vector block,
    [recv] lists the receivers of a name hash in the generated order.  Timestamps are u32. *)
From Verif Require Export Base.

Record pentry (M : Type) := mkPE { p_ts : Z; p_id : Z; p_dest : Z; p_msg : M }.
Arguments mkPE {M}. Arguments p_ts {M}. Arguments p_id {M}. Arguments p_dest {M}. Arguments p_msg {M}.

Inductive action (M : Type) := ASched (ts dest : Z) (m : M) | ACancel (id : Z).
Arguments ASched {M}. Arguments ACancel {M}.

Inductive event (M : Type) :=
| EDeliver (e : pentry M)     (* node->sendMessage(...), l.218 *)
| ESched (e : pentry M)       (* mq_addMessageByTimestamp, l.100 or HeavyContext.cpp:146 *)
| ECancel (e : pentry M)      (* mq_removeMessage removed it, HeavyContext.cpp:140 *)
| EBlock (start : Z).         (* one vector block starting at this time, l.222-248 *)
Arguments EDeliver {M}. Arguments ESched {M}. Arguments ECancel {M}. Arguments EBlock {M}.

Section Process.
Context {P M : Type}.
Variable handle : P -> pentry M -> P * list (action M).
Variable dsp : P -> P.
Variable recv : Z -> list Z.
Variable bang : M.
Variable NSIMD : Z.

Record pstate := mkPS {
  s_clock : Z;                        (* blockStartTimestamp *)
  s_pend : list (pentry M);           (* mq *)
  s_next : Z;                         (* next serial number *)
  s_inq : list (Z * Z * M);           (* inQueue: receiverHash, timestamp, message *)
  s_patch : P
}.

(** mq_addMessageByTimestamp (HvMessageQueue.c:82-122) on the list. *)
Fixpoint insert_by_ts (e : pentry M) (l : list (pentry M)) : list (pentry M) :=
  match l with
  | [] => [e]
  | x :: l' => if p_ts e <? p_ts x then e :: x :: l' else x :: insert_by_ts e l'
  end.

Definition schedule (s : pstate) (ts dest : Z) (m : M) : pstate * list (event M) :=
  let e := mkPE ts (s_next s) dest m in
  (mkPS (s_clock s) (insert_by_ts e (s_pend s)) (s_next s + 1) (s_inq s) (s_patch s), [ESched e]).

Definition cancel (s : pstate) (id : Z) : pstate * list (event M) :=
  (mkPS (s_clock s) (filter (fun x => negb (p_id x =? id)) (s_pend s)) (s_next s) (s_inq s) (s_patch s),
   map ECancel (filter (fun x => p_id x =? id) (s_pend s))).

Definition do_action (s : pstate) (a : action M) : pstate * list (event M) :=
  match a with ASched ts d m => schedule s ts d m | ACancel id => cancel s id end.

Fixpoint do_actions (s : pstate) (l : list (action M)) : pstate * list (event M) :=
  match l with
  | [] => (s, [])
  | a :: l' => let (s1, e1) := do_action s a in let (s2, e2) := do_actions s1 l' in (s2, e1 ++ e2)
  end.

(** scheduleMessageForReceiver, Heavy_NAME.cpp:95-107: one entry per receiver, unknown hash ignored. *)
Definition schedule_for_receiver (s : pstate) (r : Z * Z * M) : pstate * list (event M) :=
  let '(hash, ts, m) := r in do_actions s (map (fun d => ASched ts d m) (recv hash)).

(** The loop of Heavy_NAME.cpp:179-185. *)
Fixpoint drain_inq (s : pstate) (l : list (Z * Z * M)) : pstate * list (event M) :=
  match l with
  | [] => (mkPS (s_clock s) (s_pend s) (s_next s) [] (s_patch s), [])
  | r :: l' => let (s1, e1) := schedule_for_receiver s r in
               let (s2, e2) := drain_inq s1 l' in (s2, e1 ++ e2)
  end.

(** sendMessageToReceiver, HeavyContext.cpp:114-137, with the delay already in samples. *)
Definition host_send (s : pstate) (hash delay : Z) (m : M) : pstate :=
  mkPS (s_clock s) (s_pend s) (s_next s) (s_inq s ++ [(hash, u32 (s_clock s + delay), m)]) (s_patch s).

Definition set_pend (s : pstate) (l : list (pentry M)) : pstate :=
  mkPS (s_clock s) l (s_next s) (s_inq s) (s_patch s).
Definition set_patch (s : pstate) (p : P) : pstate :=
  mkPS (s_clock s) (s_pend s) (s_next s) (s_inq s) p.
Definition set_clock (s : pstate) (t : Z) : pstate :=
  mkPS t (s_pend s) (s_next s) (s_inq s) (s_patch s).

(** The loop of Heavy_NAME.cpp:216-220: the message is sent while it is still the head of the
    queue, and afterwards the head (whatever it is by then) is popped.  [None]: did not finish
    within [fuel] deliveries. *)
Fixpoint run_before (fuel : nat) (s : pstate) (lim : Z) : option (pstate * list (event M)) :=
  match s_pend s with
  | [] => Some (s, [])
  | e :: _ =>
    if p_ts e <? lim then
      match fuel with
      | O => None
      | S fuel' =>
        let (p', acts) := handle (s_patch s) e in
        let (s1, ev1) := do_actions (set_patch s p') acts in
        let s2 := set_pend s1 (tl (s_pend s1)) in
        match run_before fuel' s2 lim with
        | None => None
        | Some (s3, ev3) => Some (s3, EDeliver e :: ev1 ++ ev3)
        end
      end
    else Some (s, [])
  end.

(** The for loop of Heavy_NAME.cpp:211-251, [k] blocks. *)
Fixpoint run_blocks (fuel : nat) (k : nat) (s : pstate) : option (pstate * list (event M)) :=
  match k with
  | O => Some (s, [])
  | S k' =>
    let next := u32 (s_clock s + NSIMD) in
    match run_before fuel s next with
    | None => None
    | Some (s1, ev1) =>
      let s2 := set_clock (set_patch s1 (dsp (s_patch s1))) next in
      match run_blocks fuel k' s2 with
      | None => None
      | Some (s3, ev3) => Some (s3, ev1 ++ EBlock (s_clock s) :: ev3)
      end
    end
  end.

Definition HV_BANG : Z := 3709976811.   (* 0xDD21C0EB, Heavy_NAME.cpp:187 *)

(** process() with signal code, Heavy_NAME.cpp:178-253. *)
Definition process (fuel : nat) (s : pstate) (n : Z) : option (pstate * list (event M)) :=
  let (s1, ev1) := drain_inq s (s_inq s) in
  let s2 := host_send s1 HV_BANG 0 bang in
  match run_blocks fuel (Z.to_nat (n / NSIMD)) s2 with
  | None => None
  | Some (s3, ev3) => Some (s3, ev1 ++ ev3)
  end.

(** process() of a control-only patch, Heavy_NAME.cpp:178-187, 256-264. *)
Definition process_nodsp (fuel : nat) (s : pstate) (n : Z) : option (pstate * list (event M)) :=
  let (s1, ev1) := drain_inq s (s_inq s) in
  let s2 := host_send s1 HV_BANG 0 bang in
  let next := u32 (s_clock s2 + n) in
  match run_before fuel s2 next with
  | None => None
  | Some (s3, ev3) => Some (set_clock s3 next, ev1 ++ ev3)
  end.

(** A host session: sends (delay in samples) and render calls, in any order. *)
Inductive host_op := HSend (hash delay : Z) (m : M) | HRender (n : Z).
Fixpoint session (fuel : nat) (s : pstate) (ops : list host_op) : option (pstate * list (event M)) :=
  match ops with
  | [] => Some (s, [])
  | HSend h d m :: ops' => session fuel (host_send s h d m) ops'
  | HRender n :: ops' =>
      match process fuel s n with
      | None => None
      | Some (s1, ev1) => match session fuel s1 ops' with
                          | None => None
                          | Some (s2, ev2) => Some (s2, ev1 ++ ev2)
                          end
      end
  end.
(** Freshly constructed context, HeavyContext.cpp:36-60. *)
Definition fresh (p : P) : pstate := mkPS 0 [] 0 [] p.
End Process.
Arguments HSend {M}. Arguments HRender {M}.
Arguments mkPS {P M}. Arguments s_clock {P M}. Arguments s_pend {P M}. Arguments s_next {P M}.
Arguments s_inq {P M}. Arguments s_patch {P M}.
Arguments pstate : clear implicits.
