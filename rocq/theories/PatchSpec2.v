(** What Pd's objects with a notion of time, and until and stripnote, are supposed to do. *)
From Verif Require Export PatchSpec TimeSpec.
From Coq Require Import Reals.
From Flocq Require Import Core.
Open Scope Z_scope.

(** ** delay: bang (or a number, which also sets the time) starts it anew, "stop" stops it. *)
Inductive delay_in := DBang | DNum (ms : f32) | DStop | DTime (ms : f32).
(** An input, or the moment when the delay is due. *)
Inductive moment (I : Type) := At (t : Z) (i : I) | Next.
Arguments At {I}. Arguments Next {I}.
Definition delay_event (e : moment delay_in) : event :=
  match e with
  | At t DBang => In_ t 0 [EB]
  | At t (DNum ms) => In_ t 0 [EF ms]
  | At t DStop => In_ t 0 [word "stop"]
  | At t (DTime ms) => In_ t 1 [EF ms]
  | Next => Due
  end.
(** [samples]: from milliseconds; [d]: the delay in force; [p]: when it is due. *)
Fixpoint delay_spec (samples : f32 -> Z) (d : Z) (p : option Z) (l : list (moment delay_in)) : list out :=
  match l with
  | [] => []
  | At t DBang :: l' => delay_spec samples d (Some (t + d)) l'
  | At t (DNum ms) :: l' => delay_spec samples (samples ms) (Some (t + samples ms)) l'
  | At t DStop :: l' => delay_spec samples d None l'
  | At t (DTime ms) :: l' => delay_spec samples (samples ms) p l'
  | Next :: l' => match p with
                  | Some t => (t, O, [EB]) :: delay_spec samples d None l'
                  | None => delay_spec samples d None l'
                  end
  end.

(** ** metro: a bang when it is started, then one every period, until it is stopped.  A new period holds
    from the next bang on. *)
Inductive metro_in := MBang | MNum (x : f32) | MZero | MStop_ | MPeriod (ms : f32).
Definition metro_event (e : moment metro_in) : event :=
  match e with
  | At t MBang => In_ t 0 [EB]
  | At t (MNum x) => In_ t 0 [EF x]
  | At t MZero => In_ t 0 [EF fzero]
  | At t MStop_ => In_ t 0 [word "stop"]
  | At t (MPeriod ms) => In_ t 1 [EF ms]
  | Next => Due
  end.
Fixpoint metro_spec (samples : f32 -> Z) (d : Z) (p : option Z) (l : list (moment metro_in)) : list out :=
  match l with
  | [] => []
  | At t MBang :: l' | At t (MNum _) :: l' => (t, O, [EB]) :: metro_spec samples d (Some (t + d)) l'
  | At t MZero :: l' | At t MStop_ :: l' => metro_spec samples d None l'
  | At t (MPeriod ms) :: l' => metro_spec samples (samples ms) p l'
  | Next :: l' => match p with
                  | Some t => (t, O, [EB]) :: metro_spec samples d (Some (t + d)) l'
                  | None => metro_spec samples d None l'
                  end
  end.
(** Numbers other than 0, not taken for "stop". *)
Definition metro_words : list Z := [0; hv_string_to_hash (T "stop"); hv_string_to_hash (T "symbol")].

(** ** timer: the left inlet starts it, the right inlet asks for the milliseconds since. *)
Inductive timer_in := TStart | TAsk.
Definition timer_event (e : Z * timer_in) : event :=
  match e with (t, TStart) => In_ t 0 [EB] | (t, TAsk) => In_ t 1 [EB] end.
(** [ms t0 t]: the answer at time [t]. *)
Fixpoint timer_spec (ms : Z -> Z -> f32) (t0 : Z) (l : list (Z * timer_in)) : list out :=
  match l with
  | [] => []
  | (t, TStart) :: l' => timer_spec ms t l'
  | (t, TAsk) :: l' => (t, O, [EF (ms t0 t)]) :: timer_spec ms t0 l'
  end.

(** ** until: a number n causes n bangs (none if n is below 1); the right inlet has nothing to stop afterwards. *)
Inductive until_in := UNum (x : f32) | UStop.
Definition until_event (e : Z * until_in) : event :=
  match e with (t, UNum x) => In_ t 0 [EF x] | (t, UStop) => In_ t 1 [EB] end.
Fixpoint until_spec (l : list (Z * until_in)) : list out :=
  match l with
  | [] => []
  | (t, UNum x) :: l' => repeat (t, O, [EB]) (Z.to_nat (Btrunc x)) ++ until_spec l'
  | (_, UStop) :: l' => until_spec l'
  end.

(** ** makenote: a note, and after its duration the same note with velocity 0. *)
Inductive make_in := KNote (p : f32) | KVel (v : f32) | KDur (ms : f32).
Definition make_event (e : moment make_in) : event :=
  match e with
  | At t (KNote p) => In_ t 0 [EF p]
  | At t (KVel v) => In_ t 1 [EF v]
  | At t (KDur ms) => In_ t 2 [EF ms]
  | Next => Due
  end.
Definition note_msgs (t : Z) (p v : f32) : list out := [(t, 1%nat, [EF v]); (t, O, [EF p])].
(** The notes to be ended, in order of time. *)
Fixpoint by_time {A} (e : Z * A) (q : list (Z * A)) : list (Z * A) :=
  match q with [] => [e] | x :: q' => if fst e <? fst x then e :: x :: q' else x :: by_time e q' end.
Fixpoint make_spec (samples : f32 -> Z) (v : f32) (d : Z) (q : list (Z * f32)) (l : list (moment make_in)) : list out :=
  match l with
  | [] => []
  | At t (KNote p) :: l' => if feqb v fzero then make_spec samples v d q l'
                            else note_msgs t p v ++ make_spec samples v d (by_time (t + d, p) q) l'
  | At t (KVel v') :: l' => make_spec samples v' d q l'
  | At t (KDur ms) :: l' => make_spec samples v (samples ms) q l'
  | Next :: l' => match q with
                  | (t, p) :: q' => note_msgs t p fzero ++ make_spec samples v d q' l'
                  | [] => make_spec samples v d q l'
                  end
  end.
(** At most eight notes wait for their end. *)
Fixpoint make_ok (samples : f32 -> Z) (v : f32) (d : Z) (q : list (Z * f32)) (l : list (moment make_in)) : Prop :=
  (List.length q <= 8)%nat /\
  match l with
  | [] => True
  | At t (KNote p) :: l' => if feqb v fzero then make_ok samples v d q l' else make_ok samples v d (by_time (t + d, p) q) l'
  | At t (KVel v') :: l' => make_ok samples v' d q l'
  | At t (KDur ms) :: l' => make_ok samples v (samples ms) q l'
  | Next :: l' => match q with [] => make_ok samples v d q l' | _ :: q' => make_ok samples v d q' l' end
  end.

(** ** stripnote: notes with a velocity, from two inlets. *)
Inductive strip_in := NPitch (p : f32) | NVel (v : f32) | NList (p v : f32).
Definition strip_event (e : Z * strip_in) : event :=
  match e with
  | (t, NPitch p) => In_ t 0 [EF p]
  | (t, NVel v) => In_ t 1 [EF v]
  | (t, NList p v) => In_ t 0 [EF p; EF v]
  end.
Fixpoint strip_spec (v : f32) (l : list (Z * strip_in)) : list out :=
  match l with
  | [] => []
  | (t, NPitch p) :: l' => (if feqb v fzero then [] else note_msgs t p v) ++ strip_spec v l'
  | (t, NVel v') :: l' => strip_spec v' l'
  | (t, NList p v') :: l' => (if feqb v' fzero then [] else note_msgs t p v') ++ strip_spec v' l'
  end.
