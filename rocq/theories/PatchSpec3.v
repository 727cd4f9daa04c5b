(** What the MIDI output objects and pipe are supposed to send. *)
From Verif Require Export PatchSpec2.
Open Scope Z_scope.

(** ** noteout, ctlout, polytouchout: the left inlet sends, the others are remembered.  Channels count from 1
    in Pd and from 0 in the message. *)
Inductive out_in := OVal (x : f32) | OSecond (y : f32) | OChan (c : Z).
Definition out3_event (e : Z * out_in) : event :=
  match e with (t, OVal x) => In_ t 0 [EF x] | (t, OSecond y) => In_ t 1 [EF y] | (t, OChan c) => In_ t 2 [whole c] end.
Definition midi_channel (c : Z) : elem := whole (Z.max (c - 1) 0).
Fixpoint out3_spec (y : f32) (c : Z) (l : list (Z * out_in)) : list out :=
  match l with
  | [] => []
  | (t, OVal x) :: l' => (t, O, [EF x; EF y; midi_channel c]) :: out3_spec y c l'
  | (t, OSecond y') :: l' => out3_spec y' c l'
  | (t, OChan c') :: l' => out3_spec y c' l'
  end.
(** ** bendout (-8192 to 8191 become 0 to 16383), pgmout (programs from 1 on become programs from 0 on), touchout *)
Inductive out2_in := OWhole (x : Z) | OChan2 (c : Z).
Definition out2_event (e : Z * out2_in) : event :=
  match e with (t, OWhole x) => In_ t 0 [whole x] | (t, OChan2 c) => In_ t 1 [whole c] end.
Fixpoint out2_spec (f : Z -> Z) (c : Z) (l : list (Z * out2_in)) : list out :=
  match l with
  | [] => []
  | (t, OWhole x) :: l' => (t, O, [whole (f x); midi_channel c]) :: out2_spec f c l'
  | (t, OChan2 c') :: l' => out2_spec f c' l'
  end.
(** Whole numbers that a float holds. *)
Definition out3_ok (e : Z * out_in) : Prop := match snd e with OChan c => 0 <= c <= 2 ^ 24 | _ => True end.
Definition out2_ok (e : Z * out2_in) : Prop := match snd e with OChan2 c => 0 <= c <= 2 ^ 24 | OWhole x => - 8192 <= x <= 2 ^ 23 end.

(** ** pipe: every message after the delay in force when it came. *)
Inductive pipe_in := PMsg (m : msg) | PTime (ms : f32).
Definition pipe_event (e : moment pipe_in) : event :=
  match e with At t (PMsg m) => In_ t 0 m | At t (PTime ms) => In_ t 1 [EF ms] | Next => Due end.
Fixpoint pipe_spec (samples : f32 -> Z) (d : Z) (q : list (Z * msg)) (l : list (moment pipe_in)) : list out :=
  match l with
  | [] => []
  | At t (PMsg m) :: l' => pipe_spec samples d (by_time (t + d, m) q) l'
  | At t (PTime ms) :: l' => pipe_spec samples (samples ms) q l'
  | Next :: l' => match q with
                  | (t, m) :: q' => (t, O, m) :: pipe_spec samples d q' l'
                  | [] => pipe_spec samples d q l'
                  end
  end.
(** At most eight messages wait. *)
Fixpoint pipe_ok (samples : f32 -> Z) (d : Z) (q : list (Z * msg)) (l : list (moment pipe_in)) : Prop :=
  (List.length q <= 8)%nat /\
  match l with
  | [] => True
  | At t (PMsg m) :: l' => pipe_ok samples d (by_time (t + d, m) q) l'
  | At t (PTime ms) :: l' => pipe_ok samples (samples ms) q l'
  | Next :: l' => match q with [] => pipe_ok samples d q l' | _ :: q' => pipe_ok samples d q' l' end
  end.
