(** What a delay object should do, without slots, handles or queue: a bag of pending messages
    with their due times. *)
From Verif Require Import DelayModel.
From Coq Require Import Permutation.

Section Spec.
Context {M : Type}.
Variable own : Z.
Record delay_spec := mkSpec { sp_pend : list (Z * M); sp_delay : Z; sp_out : list (Z * M) }.

(** [fires]: does a Tick deliver one of this delay's messages, and which one. *)
Inductive spec_step : delay_spec -> delay_op M -> delay_spec -> Prop :=
| sp_arrive : forall p d out now m, (length p < 8)%nat ->
    spec_step (mkSpec p d out) (Arrive now m) (mkSpec (p ++ [(u32 (now + d), m)]) d out)
| sp_flush : forall p d out now o, Permutation o (map (fun x => (now, snd x)) p) ->
    spec_step (mkSpec p d out) (Flush now) (mkSpec [] d (out ++ o))
| sp_clear : forall p d out, spec_step (mkSpec p d out) Clear (mkSpec [] d out)
| sp_set : forall p d out d', spec_step (mkSpec p d out) (SetDelay d') (mkSpec p d' out)
| sp_other : forall s ts dest m, spec_step s (Other ts dest m) s
| sp_tick_other : forall s, spec_step s Tick s
| sp_tick_fire : forall p1 p2 d out t m,
    spec_step (mkSpec (p1 ++ (t, m) :: p2) d out) Tick (mkSpec (p1 ++ p2) d (out ++ [(t, m)])).
Inductive spec_run : delay_spec -> list (delay_op M) -> delay_spec -> Prop :=
| sr_nil : forall s, spec_run s [] s
| sr_cons : forall s o s1 ops s2, spec_step s o s1 -> spec_run s1 ops s2 -> spec_run s (o :: ops) s2.

(** This delay's entries in the shared queue, and their due times and messages. *)
Definition own_entries (s : dstate M) : list (qentry M) := filter (fun e => q_dest e =? own) (d_queue s).
Definition pending (s : dstate M) : list (Z * M) :=
  map (fun e => (q_ts e, q_msg e)) (own_entries s).

(** What runs downstream of the outlet does not feed back into this delay: it may change the
    queue, but not this delay's entries and state, it schedules under fresh handles, and while the
    head of the queue is being delivered nothing is put before it. *)
Record hook_quiet (hook : dstate M -> Z -> M -> dstate M) : Prop := {
  hq_mine : forall s t m, own_entries (hook s t m) = own_entries s;
  hq_slots : forall s t m, d_slots (hook s t m) = d_slots s;
  hq_delay : forall s t m, d_delay (hook s t m) = d_delay s;
  hq_out : forall s t m, d_out (hook s t m) = d_out s;
  hq_nodup : forall s t m, NoDup (ids (d_queue s)) -> NoDup (ids (d_queue (hook s t m)));
  hq_head : forall s t m e q, d_queue s = e :: q -> q_ts e <= t ->
              exists q', d_queue (hook s t m) = e :: q' }.

(** Queue in delivery order. *)
Definition in_order (q : list (qentry M)) : Prop :=
  forall q1 a q2 b q3, q = q1 ++ a :: q2 ++ b :: q3 -> q_ts a <= q_ts b.
End Spec.
Arguments hq_mine {M own hook}. Arguments hq_slots {M own hook}. Arguments hq_delay {M own hook}.
Arguments hq_out {M own hook}. Arguments hq_nodup {M own hook}. Arguments hq_head {M own hook}.
