(** Model of [tabwrite~] as the patch /repo/hvcc/interpreters/pd2hv/libs/pd/tabwrite~.pd builds it out of a
    stoppable table writer, a delay and control arithmetic, run by the render loop (Heavy_NAME.cpp:205-253:
    first every message due before the end of the block, in order of time, then the signal code of one
    vector).

    As in DelayLineModel the control objects are modelled by what they do to a message and the patch is
    transcribed by hand (object numbers in the comments); the [__delay] slots and the queue's memory are
    not modelled; time is unbounded. *)
From Verif Require Export SigTabModel TimeModel.

Section Recorder.
Context {V : Type}.
Variable vzero : V.
Variable N : Z.
Variable sr : f64.

(** Messages at the left inlet, as object 0 (__switchcase start stop set) sorts them: "start f"; "stop";
    "set name" with the table of that name, if there is one; "start" alone, bang and everything else. *)
Inductive umsg := UStart (f : f32) | UStop | USet (t : option (table V)) | UOther.
Inductive rev := RMsg (m : umsg) | RStop.   (* RStop: object 19 (__delay) fires *)
Record recorder := mkRec {
  w_t : option (table V);      (* table of object 4 (__tabwrite_stoppable~f); [None]: NULL *)
  w_head : Z;                  (* its head *)
  w_size : f32;                (* right operand of object 13 ([-]) *)
  w_spm : f32;                 (* right operand of object 7 ([/]) *)
  w_pend : list (Z * rev) }.   (* scheduled messages, in order of time *)

(** mq_addMessageByTimestamp: behind everything not later. *)
Fixpoint insert_rev (e : Z * rev) (l : list (Z * rev)) : list (Z * rev) :=
  match l with
  | [] => [e]
  | x :: l' => if fst e <? fst x then e :: x :: l' else x :: insert_rev e l'
  end.
Definition is_stop (e : Z * rev) : bool := match snd e with RStop => true | _ => false end.
Definition with_pend (st : recorder) l := mkRec (w_t st) (w_head st) (w_size st) (w_spm st) l.

(** cBinop_perform_op, HvControlBinop.c:29 *)
Definition divide (f k : f32) : f32 := if feqb k fzero then fzero else fdiv f k.
(** Objects 13, 14, 7 and inlet 1 of 19: (f - size) * -1 / spm milliseconds. *)
Definition stop_delay (size spm f : f32) : outcome Z :=
  ms_to_samples sr (divide (fmul (fsub f size) (of_int (-1))) spm).
(** Object 4's inlet 1.  Floats and "stop" do not touch the table, which may be NULL. *)
Definition writer (t : option (table V)) (head : Z) (m : tmsg) : outcome (option (table V) * Z) :=
  match t with
  | Some t => let! (t1, h) := sTabwrite_onMessage1 vzero t head m in Ok (Some t1, h)
  | None => let! (_, h) := sTabwrite_onMessage1 vzero (mkTable [] false 0 0 0 0) head m in Ok (None, h)
  end.
(** The float [f] sent to object 4's inlet 1 and then to object 13 (connects 2.0-4, 2.0-13, 8-4, 8-13, 28-4,
    28-13); 15 (t a a a) right to left: "clear" to 19, the time to 19.1, then 19.0. *)
Definition start_at (st : recorder) (ts : Z) (f : f32) : outcome recorder :=
  let! (t1, h) := writer (w_t st) (w_head st) (MFloat f) in
  let! d := stop_delay (w_size st) (w_spm st) f in
  let cleared := filter (fun e => negb (is_stop e)) (w_pend st) in
  Ok (mkRec t1 h (w_size st) (w_spm st) (insert_rev (ts + d, RStop) cleared)).
(** 18 (stop) to 4.1 *)
Definition stop (st : recorder) : outcome recorder :=
  let! (t1, h) := writer (w_t st) (w_head st) MStop in
  Ok (mkRec t1 h (w_size st) (w_spm st) (w_pend st)).
(** One message at time [ts].  "set": 1.0-4.2 (hv_table_get), 1.0-24-12-11-13.1: object 11 (system) answers
    nothing for an unknown table. *)
Definition handle (st : recorder) (ts : Z) (e : rev) : outcome recorder :=
  match e with
  | RStop | RMsg UStop => stop st
  | RMsg (UStart f) => start_at st ts f
  | RMsg UOther => start_at st ts fzero
  | RMsg (USet t) => Ok (mkRec t (w_head st) (match t with Some t => of_int (t_size t) | None => w_size st end) (w_spm st) (w_pend st))
  end.

(** The messages due before the end [till] of the block. *)
Fixpoint drain (fuel : nat) (till : Z) (st : recorder) : option (outcome recorder) :=
  match w_pend st with
  | [] => Some (Ok st)
  | (ts, e) :: l =>
    if ts <? till then
      match fuel with
      | O => None
      | S fuel' =>
        match handle (with_pend st l) ts e with
        | Ok st1 => drain fuel' till st1
        | AssertFail => Some AssertFail
        | UB => Some UB
        end
      end
    else Some (Ok st)
  end.
Definition dsp (st : recorder) (v : list V) : outcome recorder :=
  match w_t st with
  | None => if w_head st =? STOPPED then Ok st else UB
  | Some t => let! (t1, h) := tabwrite_stoppable_f N t (w_head st) v in Ok (mkRec (Some t1) h (w_size st) (w_spm st) (w_pend st))
  end.
(** One vector block: the messages that arrive for it, and its input.  [None] means that the loop over the
    messages did not end within twice the number of pending messages. *)
Definition rblock (clock : Z) (st : recorder) (msgs : list (Z * umsg)) (v : list V) : option (outcome recorder) :=
  let st0 := with_pend st (fold_left (fun l p => insert_rev (fst p, RMsg (snd p)) l) msgs (w_pend st)) in
  match drain (2 * length (w_pend st0)) (clock + N) st0 with
  | Some (Ok st1) => Some (dsp st1 v)
  | r => r
  end.
Fixpoint rrun (clock : Z) (st : recorder) (blocks : list (list (Z * umsg) * list V)) : option (outcome recorder) :=
  match blocks with
  | [] => Some (Ok st)
  | (msgs, v) :: bs =>
    match rblock clock st msgs v with
    | Some (Ok st1) => rrun (clock + N) st1 bs
    | r => r
    end
  end.
(** Load: 25 (loadbang)-24-12-11-13.1: the size; 26-22-23-6-7.1: samples per millisecond; 27-18-4.1: stop.
    sTabwrite_init sets the head to 0 before. *)
Definition rboot (t : table V) : outcome recorder :=
  stop (mkRec (Some t) sTabwrite_init (of_int (t_size t)) (divide (narrow sr) (of_int 1000)) []).
End Recorder.
Arguments umsg : clear implicits. Arguments rev : clear implicits. Arguments recorder : clear implicits.
