(** Model of the objects that ask the running patch about itself or report to its host:
    [system] (HvControlSystem.c), [print] (HvControlPrint.c) and the control-rate table head
    (HvControlTabhead.c with ControlTabhead.py), all under /repo/hvcc/generators/ir2c.
    Messages are those of MessageModel; the answer of an object is its timestamp and its number
    (a message of one float, msg_initWithFloat).  Calling through a null pointer is [UB]. *)
From Verif Require Export MessageModel Float32 Float64.
From Coq Require Import String Ascii.

(** The bytes of a C string literal. *)
Definition word (s : string) : bytes := map (fun a => Z.of_nat (nat_of_ascii a)) (list_ascii_of_string s).

(** What hTable_getLength, hTable_getSize and hTable_getHead read, HvTable.h:62-78. *)
Record tab := mkTab { tb_length : Z; tb_size : Z; tb_head : Z }.
(** The context: its sample rate (a double), its channels, and the tables that
    Heavy_NAME::getTableForHash knows (templates/Heavy_NAME.cpp:82-93: a switch, one case per
    table of the patch). *)
Record ctx := mkCtx { x_rate : f64; x_in : Z; x_out : Z; x_tables : list (Z * tab) }.
(** hv_table_get, HvHeavy.cpp, through getTableForHash. *)
Fixpoint find_tab (l : list (Z * tab)) (h : Z) : option tab :=
  match l with
  | [] => None
  | (k, t) :: l' => if k =? h then Some t else find_tab l' h
  end.
Definition hv_table_get (c : ctx) (h : Z) : option tab := find_tab (x_tables c) h.

Definition answer_msg : Type := (Z * f32)%type.
Definition send (m : msg) (v : f32) : outcome (option answer_msg) := Ok (Some (m_ts m, v)).

(** cSystem_onMessage, HvControlSystem.c:19-48; the reads go through msg_getType and
    msg_getHash, which assert that the element exists. *)
Definition cSystem_onMessage (c : ctx) (mem : bytes) (m : msg) : outcome (option answer_msg) :=
  let! b := msg_compareSymbol mem m 0 (word "samplerate") in
  if b then send m (narrow (x_rate c)) else
  let! b := msg_compareSymbol mem m 0 (word "numInputChannels") in
  if b then send m (of_int (x_in c)) else
  let! b := msg_compareSymbol mem m 0 (word "numOutputChannels") in
  if b then send m (of_int (x_out c)) else
  let! b := msg_compareSymbol mem m 0 (word "currentTime") in
  if b then send m (of_int (m_ts m)) else
  let! b := msg_compareSymbol mem m 0 (word "table") in
  if b then
    let! h := msg_getHash mem m 1 in
    match hv_table_get c h with
    | Some t =>
      let! b := msg_compareSymbol mem m 2 (word "length") in
      if b then send m (of_int (tb_length t)) else
      let! b := msg_compareSymbol mem m 2 (word "size") in
      if b then send m (of_int (tb_size t)) else
      let! b := msg_compareSymbol mem m 2 (word "head") in
      if b then send m (of_int (tb_head t)) else Ok None
    | None => Ok None
    end
  else Ok None.

(** cPrint_onMessage, HvControlPrint.c:19-25: what the print hook is called with, if at all.
    [hook] tells whether one is set. *)
Record print_call := mkPrint { p_name : bytes; p_text : bytes; p_msg : msg }.
Definition cPrint_onMessage (fmt_g : Z -> bytes) (junk : Z -> bytes) (hook : bool) (mem : bytes) (m : msg) (name : bytes)
  : outcome (option print_call) :=
  if hook then let! s := msg_toString fmt_g mem m junk in Ok (Some (mkPrint name s m)) else Ok None.

(** cTabhead_onMessage, HvControlTabhead.c:24-46.  The object holds a pointer to a table: here
    the table's key, [None] the null pointer.  [heads] is the memory of the tables now. *)
Definition tabhead := option Z.
(** msg_isHashLike, HvMessage.h:135-137. *)
Definition msg_isHashLike (m : msg) (i : Z) : outcome bool :=
  let! a := test_elem is_h m i in if a then Ok true else test_elem is_s m i.
Definition known (c : ctx) (h : Z) : option Z := match hv_table_get c h with Some _ => Some h | None => None end.
Definition cTabhead_onMessage (c : ctx) (mem : bytes) (o : tabhead) (letIn : Z) (m : msg) : outcome (tabhead * option answer_msg) :=
  if letIn =? 0 then
    let! e := get_elem m 0 in
    match e with
    | Bang => match o with
              | Some k => match hv_table_get c k with
                          | Some t => Ok (o, Some (m_ts m, of_int (tb_head t)))
                          | None => UB
                          end
              | None => UB
              end
    | _ => Ok (o, None)
    end
  else if letIn =? 1 then
    let! b := msg_isHashLike m 0 in
    if b then let! h := msg_getHash mem m 0 in Ok (known c h, None) else Ok (o, None)
  else Ok (o, None).
(** The call in the generated program, ControlTabhead.py:46-47: the inlet is always 0, whatever
    inlet the message came from. *)
Definition tabhead_receive (c : ctx) (mem : bytes) (o : tabhead) (inlet : Z) (m : msg) := cTabhead_onMessage c mem o 0 m.
(** A history: before each message the tables may have moved ([c] differs), the object is the same. *)
Fixpoint tabhead_run (o : tabhead) (l : list (ctx * bytes * Z * msg)) : outcome (tabhead * list (option answer_msg)) :=
  match l with
  | [] => Ok (o, [])
  | (c, mem, i, m) :: l' =>
    let! r := tabhead_receive c mem o i m in
    let! r' := tabhead_run (fst r) l' in Ok (fst r', snd r :: snd r')
  end.
