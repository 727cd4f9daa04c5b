(** Specification vocabulary for process(): reading a trace of events. *)
From Verif Require Import ProcessModel.

Definition delivered {M} (ev : list (event M)) : list (pentry M) :=
  flat_map (fun x => match x with EDeliver e => [e] | _ => [] end) ev.
Definition scheduled {M} (ev : list (event M)) : list (pentry M) :=
  flat_map (fun x => match x with ESched e => [e] | _ => [] end) ev.
Definition cancelled {M} (ev : list (event M)) : list (pentry M) :=
  flat_map (fun x => match x with ECancel e => [e] | _ => [] end) ev.
Definition blocks {M} (ev : list (event M)) : list Z :=
  flat_map (fun x => match x with EBlock t => [t] | _ => [] end) ev.

(** Earlier timestamp first; on equal timestamps the one scheduled earlier first. *)
Definition due_before {M} (a b : pentry M) : Prop :=
  p_ts a < p_ts b \/ (p_ts a = p_ts b /\ p_id a < p_id b).

(** A patch is causal if the code run by a message schedules only for now or later and does not
    cancel the message that is being delivered. *)
Definition causal {P M} (handle : P -> pentry M -> P * list (action M)) : Prop :=
  forall p e a, In a (snd (handle p e)) ->
  match a with ASched ts _ _ => p_ts e <= ts | ACancel id => id <> p_id e end.

(** Everything of a result except the unread incoming records. *)
Definition observe {P M} (r : option (pstate P M * list (event M))) :=
  match r with
  | None => None
  | Some (s, ev) => Some (s_clock s, s_pend s, s_next s, s_patch s, ev)
  end.

(** Frames rendered by a session; operations that stay before time 2^32 when at most [L] frames
    are rendered. *)
Fixpoint frames {M} (ops : list (@host_op M)) : Z :=
  match ops with [] => 0 | HSend _ _ _ :: l => frames l | HRender n :: l => n + frames l end.
Definition fits {M} (L : Z) (o : @host_op M) : Prop :=
  match o with HSend _ d _ => 0 <= d /\ L + d < 4294967296 | HRender n => 0 <= n end.
