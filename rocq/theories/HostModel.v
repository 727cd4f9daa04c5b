(** Model of the host side queues of a context:
    /repo/hvcc/generators/ir2c/static/HeavyContext.cpp:20-34 (defaultSendHook), 114-137
    (sendMessageToReceiver), 196-219 (getNextSentMessage), and of the reading loop of
    templates/Heavy_NAME.cpp:178-185, on top of the byte pipe (PipeModel) and of the byte layout of
    messages (MessageModel).

    A record is a ReceiverMessagePair (HeavyContext.hpp:30-33): 4 bytes hash, 4 bytes padding, the
    message.  The symbol pointers of a queued message point into the record itself; writer and
    reader see the record at the same address.  Simplification: that address is a constant [base],
    above the memory of the program (whose addresses are [0, base)), for every record. *)
From Verif Require Export PipeModel MessageModel.

(** The record written for message [m] to receiver [hash]; [mem] is the memory of the program, [old]
    what the reserved bytes contained.  [ts = Some t] is sendMessageToReceiver (l.123-129),
    [ts = None] defaultSendHook (l.26-28: keeps the time of the message). *)
Definition record_of (mem old : bytes) (hash : Z) (ts : option Z) (m : msg) : outcome bytes :=
  let base := zlen mem in
  let w0 := mem ++ old in
  let! w1 := store w0 base (le 4 hash) in                       (* p->receiverHash = ... *)
  let! w2 := msg_copyToBuffer w1 m (base + 8) (m_nb m) in       (* msg_copyToBuffer(m, &p->msg, msg_getSize(m)) *)
  let! w3 := match ts with Some t => store w2 (base + 8) (le 4 t) | None => Ok w2 end in
  Ok (skipn (length mem) w3).

(** numBytes, l.23 and l.122: sizeof(ReceiverMessagePair) + msg_getSize(m) - sizeof(HvMessage). *)
Definition pair_size (m : msg) : Z := 32 + m_nb m - 24.

(** What the reader of a record sees through p->receiverHash and &p->msg. *)
Definition read_record (base : Z) (r : bytes) : outcome (Z * msg) :=
  let w := repeat 0 (Z.to_nat base) ++ r in
  let! h := load w base 4 in
  let! m := load_msg w (base + 8) in
  Ok (h, m).

(** A call of sendMessageToReceiver ([c_delay = Some d], d the delay in samples) or of
    defaultSendHook ([None]). *)
Record call := mkCall {
  c_mem : bytes;           (* memory at the time of the call *)
  c_old : bytes;           (* previous content of the reserved record *)
  c_hash : Z;
  c_clock : Z;             (* blockStartTimestamp at the time of the call *)
  c_delay : option Z;
  c_msg : msg
}.
(** l.118-119: timestamp, or the time of the message. *)
Definition call_stamp (c : call) : option Z :=
  match c_delay c with Some d => Some (u32 (c_clock c + d)) | None => None end.
Definition call_record (c : call) : outcome bytes :=
  record_of (c_mem c) (c_old c) (c_hash c) (call_stamp c) (c_msg c).

(** The sending thread and the reading thread interleave: a call starts (ignored while another one
    holds the lock / is in progress), the sender makes its next access, the reader makes its next
    access (process() reading the in queue). *)
Inductive hlabel := HCall (c : call) | HProd | HCons.
Definition hstep (s : pipe) (l : hlabel) : outcome pipe :=
  match l with
  | HCall c => let! r := call_record c in step s (Send r)
  | HProd => step s Prod
  | HCons => step s Cons
  end.
Fixpoint hrun (s : pipe) (ls : list hlabel) : outcome pipe :=
  match ls with
  | [] => Ok s
  | l :: ls' => let! s1 := hstep s l in hrun s1 ls'
  end.

(** hv_memcpy from the pipe buffer, byte by byte. *)
Fixpoint load_n (s : pipe) (a : Z) (k : nat) : outcome bytes :=
  match k with
  | O => Ok []
  | S k' => let! b := load8 s a in let! l := load_n s (a + 1) k' in Ok (b :: l)
  end.

(** getNextSentMessage, HeavyContext.cpp:196-219, as one action of the reader: [maxlen] is
    msgLengthBytes; returns the destination hash and the bytes written to outMsg. *)
Definition get_next (s : pipe) (maxlen : Z) : outcome (option (Z * bytes) * pipe) :=
  let! x := load32 s (rh s) in                                  (* hLp_hasData, HvLightPipe.c:66-71 *)
  let s1 := if x =? HLP_LOOP then set_rh s 0 else s in
  let! n := load32 s1 (rh s1) in
  if n =? 0 then Ok (None, s1) else
  assert! 32 <=? n in                                           (* l.208 *)
  assert! n <=? maxlen in                                       (* l.209 *)
  let! h := load32 s1 (rh s1 + 4) in                            (* l.212 *)
  let! out := load_n s1 (rh s1 + 4 + 8) (Z.to_nat n) in         (* l.213: from &p->msg, numBytes bytes *)
  let! r := load_n s1 (rh s1 + 4) (Z.to_nat n) in               (* ghost: the record, for the history *)
  Ok (Some (h, out), set_rh (log_recv s1 r) (rh s1 + 4 + n)).   (* l.214 hLp_consume *)

(** A session on the output queue: sends by the patch interleaved with reads by the host. *)
Inductive olabel := OCall (c : call) | OProd | OGet (maxlen : Z).
Fixpoint osession (s : pipe) (ls : list olabel) : outcome (pipe * list (Z * bytes)) :=
  match ls with
  | [] => Ok (s, [])
  | OCall c :: ls' => let! r := call_record c in let! s1 := step s (Send r) in osession s1 ls'
  | OProd :: ls' => let! s1 := step s Prod in osession s1 ls'
  | OGet maxlen :: ls' =>
      let! (o, s1) := get_next s maxlen in
      let! (s2, res) := osession s1 ls' in
      Ok (s2, match o with Some x => x :: res | None => res end)
  end.
