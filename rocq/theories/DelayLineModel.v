(** Model of a delay line as the patches
    /repo/hvcc/interpreters/pd2hv/libs/pd/delwrite~.pd and delread~.pd build it out of a table, a linear
    table writer, a linear table reader and control objects, run by the render loop
    (Heavy_NAME.cpp:205-253: first every message due before the end of the block, in order of time,
    then the signal code of one vector).

    The control objects are modelled by what they do to a message (proved for them elsewhere): [__delay]
    (HvControlDelay.c:24-82) schedules the bang it gets at time + delay and "clear" cancels it, triggers
    send right to left, [max], [-], [*] are the float operations.  Simplifications: the control code of
    the patches is transcribed by hand from the .pd files (object numbers in the comments); the [__delay]
    slots and the queue's memory are not modelled; time is unbounded (in C timestamps wrap after 2^32
    samples).  The delay time arrives as a number of samples: the conversion from milliseconds
    (samplerate~, / 1000, "* $2") is outside. *)
From Verif Require Export SigTabModel.

Inductive ev :=
| WLoop          (* delwrite~ object 8 fires: the writer wraps *)
| WMirror        (* delwrite~ object 12 fires *)
| RFirst         (* delread~ object 9 fires: the reader reaches the end of the table *)
| RLoop          (* delread~ object 15 fires: it reaches it again *)
| RSet (ds : f32).   (* delread~'s inlet: new delay, in samples *)

Section DelayLine.
Context {V : Type}.
Variable vzero : V.
Variable N : Z.

Record dline := mkDL {
  d_t : table V;               (* the table del-$1 *)
  d_wh : Z;                    (* head of __tabwrite~f *)
  d_r : reader;                (* __tabread~f *)
  d_w8 : Z; d_w12 : Z;         (* delays of delwrite~'s objects 8, 12 *)
  d_r15 : Z;                   (* delay of delread~'s object 15 *)
  d_pend : list (Z * ev) }.    (* scheduled messages, in order of time *)

(** mq_addMessageByTimestamp: behind everything not later. *)
Fixpoint insert_ev (e : Z * ev) (l : list (Z * ev)) : list (Z * ev) :=
  match l with
  | [] => [e]
  | x :: l' => if fst e <? fst x then e :: x :: l' else x :: insert_ev e l'
  end.
Definition sched (st : dline) (e : Z * ev) : dline :=
  mkDL (d_t st) (d_wh st) (d_r st) (d_w8 st) (d_w12 st) (d_r15 st) (insert_ev e (d_pend st)).
Definition is_r (e : Z * ev) : bool := match snd e with RFirst | RLoop => true | _ => false end.
(** "clear" to objects 9 and 15. *)
Definition cancel_r (st : dline) : dline :=
  mkDL (d_t st) (d_wh st) (d_r st) (d_w8 st) (d_w12 st) (d_r15 st) (filter (fun e => negb (is_r e)) (d_pend st)).
Definition with_t (st : dline) t := mkDL t (d_wh st) (d_r st) (d_w8 st) (d_w12 st) (d_r15 st) (d_pend st).
Definition with_wh (st : dline) h := mkDL (d_t st) h (d_r st) (d_w8 st) (d_w12 st) (d_r15 st) (d_pend st).
Definition with_r (st : dline) r := mkDL (d_t st) (d_wh st) r (d_w8 st) (d_w12 st) (d_r15 st) (d_pend st).
Definition with_r15 (st : dline) d := mkDL (d_t st) (d_wh st) (d_r st) (d_w8 st) (d_w12 st) d (d_pend st).
Definition with_pend (st : dline) l := mkDL (d_t st) (d_wh st) (d_r st) (d_w8 st) (d_w12 st) (d_r15 st) l.

(** [__delay] inlet 2, HvControlDelay.c:68-74: (hv_uint32_t) hv_max_f(0, f). *)
Definition delay_samples (f : f32) : outcome Z := to_u32 (fmax fzero f).

(** One message at time [ts]. *)
Definition handle (st : dline) (ts : Z) (e : ev) : outcome dline :=
  match e with
  | WLoop =>     (* connects 8-10, 10.2-12, 10.1-8, 10.0-tabwrite inlet 1 (bang) *)
      let st1 := sched st (ts + d_w12 st, WMirror) in
      let st2 := sched st1 (ts + d_w8 st1, WLoop) in
      let! (t, h) := sTabwrite_onMessage1 vzero (d_t st2) (d_wh st2) MBang in
      Ok (with_wh (with_t st2 t) h)
  | WMirror => let! t := hTable_mirror N (d_t st) in Ok (with_t st t)   (* 12-11-4 *)
  | RFirst =>    (* 9-15, 9-34 *)
      let st1 := sched st (ts + d_r15 st, RLoop) in
      let! (r, _) := sTabread_onMessage0 N (d_t st1) (d_r st1) MBang in Ok (with_r st1 r)
  | RLoop =>     (* 15-14, 14.1-34, 14.0-15 *)
      let! (r, _) := sTabread_onMessage0 N (d_t st) (d_r st) MBang in
      Ok (sched (with_r st r) (ts + d_r15 st, RLoop))
  | RSet ds =>   (* 28.2-8-7-6: size to 30.1 and 15.2; 28.1-...-25 (max N)-5.1; 28.0-0 (head)-5.0-26 *)
      let size := of_int (t_size (d_t st)) in
      let! d15 := delay_samples size in
      let pos := fsub (of_int (t_head (d_t st))) (fmax ds (of_int N)) in
      let st1 := cancel_r (with_r15 st d15) in                                   (* 26.2-13-9,15 *)
      let! (r, sent) := sTabread_onMessage0 N (d_t st1) (d_r st1) (MFloat pos) in   (* 26.1-34 *)
      match sent with
      | [hd] =>                                                                  (* 34.1-30-29-9.2 *)
          let! d9 := delay_samples (fmul (fsub hd size) (of_int (-1))) in
          Ok (sched (with_r st1 r) (ts + d9, RFirst))                            (* 26.0-9 *)
      | _ => Ok (with_r st1 r)
      end
  end.

(** The messages due before the end [till] of the block; [None]: more than [fuel] messages. *)
Fixpoint drain (fuel : nat) (till : Z) (st : dline) : option (outcome dline) :=
  match d_pend st with
  | [] => Some (Ok st)
  | (ts, e) :: l =>
    if ts <? till then
      match fuel with
      | O => None
      | S fuel' =>
        match handle (with_pend st l) ts e with
        | Ok st1 => drain fuel' till st1
        | AssertFail => Some AssertFail
        | UB => Some UB
        end
      end
    else Some (Ok st)
  end.

(** The signal code: the compiler puts the reader or the writer first. *)
Definition dsp (read_first al : bool) (st : dline) (v : list V) : outcome (dline * list V) :=
  if read_first then
    let! (r, out) := tabread_f N al (d_t st) (d_r st) in
    let! (t, h) := tabwrite_f N al (d_t st) (d_wh st) v in
    Ok (with_r (with_wh (with_t st t) h) r, out)
  else
    let! (t, h) := tabwrite_f N al (d_t st) (d_wh st) v in
    let! (r, out) := tabread_f N al t (d_r st) in
    Ok (with_r (with_wh (with_t st t) h) r, out).

(** One vector block: delay messages that arrive for it, and its input. *)
Definition dblock (fuel : nat) (read_first al : bool) (clock : Z) (st : dline) (sets : list (Z * f32)) (v : list V)
  : option (outcome (dline * list V)) :=
  let st0 := fold_left (fun s p => sched s (fst p, RSet (snd p))) sets st in
  match drain fuel (clock + N) st0 with
  | Some (Ok st1) => Some (dsp read_first al st1 v)
  | Some AssertFail => Some AssertFail
  | Some UB => Some UB
  | None => None
  end.
Fixpoint drun (fuel : nat) (read_first al : bool) (clock : Z) (st : dline) (blocks : list (list (Z * f32) * list V))
  : option (outcome (dline * list (list V))) :=
  match blocks with
  | [] => Some (Ok (st, []))
  | (sets, v) :: bs =>
    match dblock fuel read_first al clock st sets v with
    | Some (Ok (st1, out)) =>
        match drun fuel read_first al (clock + N) st1 bs with
        | Some (Ok (st2, outs)) => Some (Ok (st2, out :: outs))
        | r => r
        end
    | Some AssertFail => Some AssertFail
    | Some UB => Some UB
    | None => None
    end
  end.

(** Load: the table of [len0] samples is resized to [len] (delwrite~ objects 9-2-7-3-5-4), the loop is
    started (13.2-15-12.2, 13.1-8.2, 13.0-8.0), then the reader is set to its initial delay (loadbang -1). *)
Definition boot (aligned : bool) (len0 len : Z) (ds0 : f32) : outcome dline :=
  let! t0 := hTable_init vzero N len0 in
  let! t := hTable_resize vzero N aligned t0 len in
  let! w12 := delay_samples (of_int N) in
  let! w8 := delay_samples (of_int (t_size t)) in
  let st := sched (mkDL t sTabwrite_init (sTabread_init t0 true) w8 w12 0 []) (w8, WLoop) in
  handle st 0 (RSet ds0).
End DelayLine.
