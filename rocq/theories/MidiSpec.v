(** MIDI messages as the MIDI standard defines them, what the objects of a patch expect, and what a host's transport means.  Nothing here refers
    to how /repo does it. *)
From Verif Require Export MidiModel TimeSpec.
From Coq Require Import Reals.
Open Scope Z_scope.

(** ** Channel messages.  Channels count from 0. *)
Inductive midi :=
| NoteOff (ch key velocity : Z) | NoteOn (ch key velocity : Z) | PolyTouch (ch key pressure : Z) | Control (ch number value : Z)
| Program (ch program : Z) | Touch (ch pressure : Z) | Bend (ch value : Z).
Definition data7 (z : Z) : Prop := 0 <= z < 128.
Definition is_midi (m : midi) : Prop :=
  match m with
  | NoteOff c a b | NoteOn c a b | PolyTouch c a b | Control c a b => 0 <= c < 16 /\ data7 a /\ data7 b
  | Program c a | Touch c a => 0 <= c < 16 /\ data7 a
  | Bend c v => 0 <= c < 16 /\ 0 <= v < 16384
  end.
(** The bytes on the wire. *)
Definition midi_bytes (m : midi) : list Z :=
  match m with
  | NoteOff c k v => [8 * 16 + c; k; v]
  | NoteOn c k v => [9 * 16 + c; k; v]
  | PolyTouch c k p => [10 * 16 + c; k; p]
  | Control c n v => [11 * 16 + c; n; v]
  | Program c p => [12 * 16 + c; p]
  | Touch c p => [13 * 16 + c; p]
  | Bend c v => [14 * 16 + c; v mod 128; v / 128]
  end.
(** Receiver and elements for notein.pd, polytouchin.pd, ctlin.pd, pgmin.pd, touchin.pd, bendin.pd (the values first, then the
    channel); a note off is a note with velocity 0. *)
Definition received (m : midi) : string * list Z :=
  match m with
  | NoteOff c k v => ("__hv_notein"%string, [k; 0; c])
  | NoteOn c k v => ("__hv_notein"%string, [k; v; c])
  | PolyTouch c k p => ("__hv_polytouchin"%string, [p; k; c])
  | Control c n v => ("__hv_ctlin"%string, [v; n; c])
  | Program c p => ("__hv_pgmin"%string, [p; c])
  | Touch c p => ("__hv_touchin"%string, [p; c])
  | Bend c v => ("__hv_bendin"%string, [v; c])
  end.
(** Sender and elements of noteout.pd etc., on Pd's MIDI port [port] (16 channels each). *)
Definition sent_by (port : Z) (m : midi) : string * list Z :=
  match m with
  | NoteOff c k v => ("__hv_noteout"%string, [k; 0; c + 16 * port])
  | NoteOn c k v => ("__hv_noteout"%string, [k; v; c + 16 * port])
  | PolyTouch c k p => ("__hv_polytouchout"%string, [p; k; c + 16 * port])
  | Control c n v => ("__hv_ctlout"%string, [v; n; c + 16 * port])
  | Program c p => ("__hv_pgmout"%string, [p; c + 16 * port])
  | Touch c p => ("__hv_touchout"%string, [p; c + 16 * port])
  | Bend c v => ("__hv_bendout"%string, [v; c + 16 * port])
  end.
(** Notes with velocity 0 are note offs. *)
Definition normal (m : midi) : midi :=
  match m with
  | NoteOff c k _ => NoteOff c k 0
  | NoteOn c k v => if v =? 0 then NoteOff c k 0 else m
  | _ => m
  end.
Definition channel_of (m : midi) : Z :=
  match m with
  | NoteOff c _ _ | NoteOn c _ _ | PolyTouch c _ _ | Control c _ _ => c
  | Program c _ | Touch c _ | Bend c _ => c
  end.
(** The receiver of a name. *)
Definition receiver (s : string) : Z := hv_string_to_hash (T s).
Definition for_receiver (s : string) (c : call) : bool := c_recv c =? receiver s.
(** The event carries the message (a message of two bytes leaves the third and fourth open). *)
Definition carries (e : mevent) (m : midi) : Prop :=
  List.length (ev_data e) = 4%nat /\ firstn (List.length (midi_bytes m)) (ev_data e) = midi_bytes m.

(** A number whose fraction is dropped. *)
Definition stands_for (x : f32) (z : Z) : Prop := is_finite x = true /\ Btrunc x = z.

(** ** What is played: numbers at the three inlets of noteout. *)
Inductive note_in := NKey (k : Z) | NVelocity (v : Z) | NChannel (c : Z).
Definition note_in_ok (i : note_in) : Prop :=
  match i with NKey k => data7 k | NVelocity v => data7 v | NChannel c => 1 <= c <= 16 end.
Fixpoint notes_played (v c : Z) (l : list (Z * note_in)) : list midi :=
  match l with
  | [] => []
  | (_, NKey k) :: l' => NoteOn (c - 1) k v :: notes_played v c l'
  | (_, NVelocity v') :: l' => notes_played v' c l'
  | (_, NChannel c') :: l' => notes_played v c' l'
  end.

(** ** Transport *)
Inductive rt := Start | Continue | Stop.
Definition rt_status (r : rt) : Z := match r with Start => 250 | Continue => 251 | Stop => 252 end.
(** [before]: playing at the end of the block before. *)
Definition change_of (before : bool) (p : position) : list rt :=
  match before, playing p with
  | false, true => [if frame p =? 0 then Start else Continue]
  | true, false => [Stop]
  | _, _ => []
  end.
(** Starts and stops alternate; [on]: the last was a start. *)
Fixpoint alternate (on : bool) (l : list rt) : Prop :=
  match l with
  | [] => True
  | Stop :: l' => on = true /\ alternate false l'
  | (Start | Continue) :: l' => on = false /\ alternate true l'
  end.
(** Samples between two ticks: 24 ticks per beat, [tempo] beats per minute. *)
Definition tick_every (rate tempo : R) : R := (60 * rate / (24 * tempo))%R.
(** A clock message that comes up at sample [d] of the block, up to the width of a sample and 1/7000000 of the time since the start, when [k] ticks
    have gone. *)
Definition clock_at (sr : f64) (every : R) (c n : Z) (k : nat) (cl : call) : Prop :=
  c_recv cl = receiver "__hv_midirealtimein" /\ c_vals cl = [of_int 248; of_int 0] /\
  exists d, 0 <= d <= n /\ (forall start, message_time sr start (c_ms cl) = Ok (u32 (start + d))) /\
    (Rabs (IZR (c + d) - INR k * every) <= 1.01 + INR k * every / 7000000)%R.
(** Successive blocks of [ns] frames, the first from frame [c] on, before which there were [k] ticks: all ticks come, each in its block. *)
Fixpoint clock_right (sr : f64) (every : R) (c : Z) (k : nat) (ns : list Z) (out : list (list call)) : Prop :=
  match ns, out with
  | [], [] => True
  | n :: ns', o :: out' =>
      (forall j cl, nth_error o j = Some cl -> clock_at sr every c n (k + j) cl) /\
      (IZR (c + n) <= INR (k + List.length o) * every * (1 + / 7000000))%R /\
      clock_right sr every (c + n) (k + List.length o) ns' out'
  | _, _ => False
  end.
(** A realtime message with that status byte; which change of the transport it tells. *)
Definition status_is (z : Z) (c : call) : bool := for_receiver "__hv_midirealtimein" c && match c_vals c with x :: _ => feqb x (of_int z) | [] => false end.
Definition transport_of (c : call) : list rt :=
  if status_is 250 c then [Start] else if status_is 251 c then [Continue] else if status_is 252 c then [Stop] else [].
(** All changes of a history of blocks. *)
Fixpoint changes (before : bool) (l : list (position * Z)) : list rt :=
  match l with [] => [] | (p, _) :: l' => change_of before p ++ changes (playing p) l' end.
(** Bytes in groups of four; an incomplete group at the end is left out. *)
Fixpoint fours (l : list Z) : list (list Z) :=
  match l with a :: b :: c :: d :: l' => [a; b; c; d] :: fours l' | _ => [] end.
(** A text: no zero bytes. *)
Definition proper (l : list Z) : Prop := Forall (fun b => 1 <= b < 256) l.
Definition sumZ (l : list Z) : Z := fold_right Z.add 0 l.
