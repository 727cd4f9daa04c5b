(** Model of the delay object: /repo/hvcc/generators/ir2c/static/HvControlDelay.c and the
    sendMessage function generated by /repo/hvcc/generators/ir2c/ControlDelay.py:70-89, together
    with the shared message queue (the sorted list of QueueSpec, see QueueProps) and the render
    loop's pop (Heavy_NAME.cpp:216-220).

    A queue entry has the handle (pool address) returned when it was scheduled; [fresh] is the
    pool's choice of an address (any address not used by a pending message, see C07; addresses
    are reused).  [own] is this object's sendMessage function pointer, other destinations stand
    for all other objects.  [hook] is whatever runs downstream of the delay's outlet. *)
From Verif Require Export Base.

Section Delay.
Context {M : Type}.
Variable own : Z.
Variable fresh : list Z -> Z.

Record qentry := mkQ { q_ts : Z; q_id : Z; q_dest : Z; q_msg : M }.

Record dstate := mkD {
  d_queue : list qentry;          (* mq *)
  d_delay : Z;                    (* o->delay *)
  d_slots : list (option Z);      (* o->msgs[8] *)
  d_out : list (Z * M)            (* log: messages leaving the outlet with their timestamp *)
}.

(** cDelay_init, HvControlDelay.c:19-23; [delay] in samples. *)
Definition cDelay_init (delay : Z) : dstate := mkD [] delay (repeat None 8) [].

Definition ids (q : list qentry) : list Z := map q_id q.

(** mq_addMessageByTimestamp (HvMessageQueue.c:82-122) on a list that may be unsorted: front if
    before the head, back if not before the tail, else before the first later entry. *)
Fixpoint insert_before_later (e : qentry) (q : list qentry) : list qentry :=
  match q with
  | [] => [e]
  | x :: q' => if q_ts e <? q_ts x then e :: x :: q' else x :: insert_before_later e q'
  end.
Definition enqueue (q : list qentry) (e : qentry) : list qentry :=
  match q with
  | [] => [e]
  | x :: _ => if q_ts e <? q_ts x then e :: q
              else if q_ts (last q x) <=? q_ts e then q ++ [e]
              else insert_before_later e q
  end.

(** hv_scheduleMessageForObject, HeavyContext.cpp:143-148. *)
Definition schedule (s : dstate) (ts dest : Z) (m : M) : dstate * Z :=
  let a := fresh (ids (d_queue s)) in
  (mkD (enqueue (d_queue s) (mkQ ts a dest m)) (d_delay s) (d_slots s) (d_out s), a).

(** hv_cancelMessage, HeavyContext.cpp:139-141 -> mq_removeMessage: the entry with that handle, if
    its destination matches. *)
Definition cancel (s : dstate) (a dest : Z) : dstate :=
  mkD (filter (fun e => negb ((q_id e =? a) && (q_dest e =? dest))) (d_queue s))
      (d_delay s) (d_slots s) (d_out s).

Definition set_slots (s : dstate) (l : list (option Z)) : dstate := mkD (d_queue s) (d_delay s) l (d_out s).
Definition log (s : dstate) (t : Z) (m : M) : dstate := mkD (d_queue s) (d_delay s) (d_slots s) (d_out s ++ [(t, m)]).

Fixpoint set_slot (k : nat) (v : option Z) (l : list (option Z)) : list (option Z) :=
  match l with [] => [] | x :: l' => match k with O => v :: l' | S k' => x :: set_slot k' v l' end end.

(** cDelay_clearExecutingMessage, HvControlDelay.c:84-91: the first slot with that handle. *)
Fixpoint clear_executing (l : list (option Z)) (a : Z) : list (option Z) :=
  match l with
  | [] => []
  | Some b :: l' => if b =? a then None :: l' else Some b :: clear_executing l' a
  | None :: l' => None :: clear_executing l' a
  end.

Variable hook : dstate -> Z -> M -> dstate.

(** The generated cDelay_X_sendMessage, ControlDelay.py:80-89. *)
Definition sendMessage (s : dstate) (t a : Z) (m : M) : dstate :=
  let s1 := set_slots s (clear_executing (d_slots s) a) in
  hook (log s1 t m) t m.

Definition retime (q : list qentry) (a t : Z) : list qentry :=
  map (fun e => if q_id e =? a then mkQ t (q_id e) (q_dest e) (q_msg e) else e) q.
Definition find_id (q : list qentry) (a : Z) : option qentry := find (fun e => q_id e =? a) q.

(** flush, HvControlDelay.c:30-40: [k] slots starting at [i].  A handle that is not pending is a
    dangling pointer. *)
Fixpoint flush_loop (s : dstate) (now : Z) (i k : nat) : outcome dstate :=
  match k with
  | O => Ok s
  | S k' =>
    match nth i (d_slots s) None with
    | None => flush_loop s now (S i) k'
    | Some a =>
      match find_id (d_queue s) a with
      | None => UB
      | Some e =>
        let s1 := mkD (retime (d_queue s) a now) (d_delay s) (d_slots s) (d_out s) in    (* l.33 *)
        let s2 := sendMessage s1 now a (q_msg e) in                                      (* l.34 *)
        flush_loop (cancel s2 a own) now (S i) k'                                        (* l.35 *)
      end
    end
  end.
(** clear, HvControlDelay.c:43-48. *)
Fixpoint clear_loop (s : dstate) (l : list (option Z)) : dstate :=
  match l with
  | [] => s
  | Some a :: l' => clear_loop (cancel s a own) l'
  | None :: l' => clear_loop s l'
  end.
Fixpoint first_free (l : list (option Z)) : option nat :=
  match l with
  | [] => None
  | None :: _ => Some O
  | Some _ :: l' => match first_free l' with None => None | Some k => Some (S k) end
  end.
(** schedule, HvControlDelay.c:50-63. *)
Definition on_message (s : dstate) (now : Z) (m : M) : outcome dstate :=
  match first_free (d_slots s) with
  | None => AssertFail
  | Some k => let (s1, a) := schedule s (u32 (now + d_delay s)) own m in
              Ok (set_slots s1 (set_slot k (Some a) (d_slots s1)))
  end.

Inductive delay_op :=
| Arrive (now : Z) (m : M)        (* message on the left inlet *)
| Flush (now : Z) | Clear         (* "flush" / "clear" on the left inlet *)
| SetDelay (d : Z)                (* right inlets, in samples *)
| Other (ts dest : Z) (m : M)     (* another object schedules a message *)
| Tick.                           (* the render loop delivers and pops the head of the queue *)

Definition delay_step (s : dstate) (o : delay_op) : outcome dstate :=
  match o with
  | Arrive now m => on_message s now m
  | Flush now => let! s1 := flush_loop s now 0 8 in Ok (set_slots s1 (repeat None 8))
  | Clear => Ok (set_slots (clear_loop s (d_slots s)) (repeat None 8))
  | SetDelay d => Ok (mkD (d_queue s) d (d_slots s) (d_out s))
  | Other ts dest m => if dest =? own then Ok s else Ok (fst (schedule s ts dest m))
  | Tick =>
      match d_queue s with
      | [] => Ok s
      | e :: _ =>
          let s1 := if q_dest e =? own then sendMessage s (q_ts e) (q_id e) (q_msg e) else s in
          Ok (mkD (tl (d_queue s1)) (d_delay s1) (d_slots s1) (d_out s1))
      end
  end.
Fixpoint delay_run (s : dstate) (ops : list delay_op) : outcome dstate :=
  match ops with [] => Ok s | o :: ops' => let! s1 := delay_step s o in delay_run s1 ops' end.
End Delay.
Arguments qentry : clear implicits.
Arguments dstate : clear implicits.
Arguments delay_op : clear implicits.
Arguments mkQ {M}. Arguments mkD {M}.
