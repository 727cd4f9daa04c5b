(** Model of the message queue, /repo/hvcc/generators/ir2c/static/HvMessageQueue.c, on top of the
    message pool model (the queue owns its pool, HvMessageQueue.h:46).

    MessageNodes live in a heap indexed by positive numbers 1..[nalloc]; 0 is the NULL node pointer.
    Contents of freshly allocated nodes are whatever the heap function holds (arbitrary).
    Message pointers are offsets into the pool buffer; [NULLM] = -1 is the NULL message pointer.
    sendMessage function pointers are numbers, 0 is NULL.
    A loop over more nodes than were ever allocated can never stop; it is reported as [UB].
    Simplification: hv_malloc of nodes never fails (HvMessageQueue.c:41). *)
From Verif Require Export Base PoolModel.

Record node := mkNode { n_prev : Z; n_next : Z; n_m : Z; n_send : Z; n_let : Z }.  (* HvMessageQueue.h:33-39 *)
Definition NULLM : Z := -1.

Record queue := mkQueue {
  q_head : Z; q_tail : Z; q_pool : Z;     (* HvMessageQueue.h:42-47 *)
  q_mp : pool;
  q_heap : Z -> node;
  q_nalloc : Z
}.

Definition valid (q : queue) (n : Z) : bool := (1 <=? n) && (n <=? q_nalloc q).
Definition deref (q : queue) (n : Z) : outcome node := guard! valid q n in Ok (q_heap q n).
Definition heap_set (h : Z -> node) (n : Z) (x : node) : Z -> node := fun k => if k =? n then x else h k.
Definition upd (q : queue) (n : Z) (f : node -> node) : outcome queue :=
  guard! valid q n in
  Ok (mkQueue (q_head q) (q_tail q) (q_pool q) (q_mp q) (heap_set (q_heap q) n (f (q_heap q n))) (q_nalloc q)).
Definition set_head (q : queue) (x : Z) := mkQueue x (q_tail q) (q_pool q) (q_mp q) (q_heap q) (q_nalloc q).
Definition set_tail (q : queue) (x : Z) := mkQueue (q_head q) x (q_pool q) (q_mp q) (q_heap q) (q_nalloc q).
Definition set_pool (q : queue) (x : Z) := mkQueue (q_head q) (q_tail q) x (q_mp q) (q_heap q) (q_nalloc q).
Definition set_mp (q : queue) (x : pool) := mkQueue (q_head q) (q_tail q) (q_pool q) x (q_heap q) (q_nalloc q).

Definition with_prev (x : Z) (n : node) := mkNode x (n_next n) (n_m n) (n_send n) (n_let n).
Definition with_next (x : Z) (n : node) := mkNode (n_prev n) x (n_m n) (n_send n) (n_let n).
Definition with_msg (m let_ send : Z) (n : node) := mkNode (n_prev n) (n_next n) m send let_.

(** mq_initWithPoolSize, HvMessageQueue.c:19-25. *)
Definition mq_init (junkh : Z -> node) (junk : pmem) (kb : Z) : outcome queue :=
  assert! 0 <? kb in Ok (mkQueue 0 0 0 (mp_init junk kb) junkh 0).

(** mq_getOrCreateNodeFromPool, HvMessageQueue.c:37-47. *)
Definition mq_getNode (q : queue) : outcome (queue * Z) :=
  let! q1 := (if q_pool q =? 0
              then let n := q_nalloc q + 1 in
                   upd (mkQueue (q_head q) (q_tail q) n (q_mp q) (q_heap q) n) n (with_next 0)
              else Ok q) in
  let! nd := deref q1 (q_pool q1) in
  Ok (set_pool q1 (n_next nd), q_pool q1).

Definition mq_hasMessage (q : queue) : bool := negb (q_head q =? 0).    (* HvMessageQueue.h:63-65 *)

(** msg_getTimestamp: little-endian u32 at offset 0 (HvMessage.h:42-47, 77-79). *)
Definition img_ts (img : list Z) : Z :=
  nth 0 img 0 + 256 * nth 1 img 0 + 65536 * nth 2 img 0 + 16777216 * nth 3 img 0.
Definition stored_ts (p : pool) (a : Z) : outcome Z :=
  guard! in_pool p a 4 in
  Ok (bytes p a + 256 * bytes p (a + 1) + 65536 * bytes p (a + 2) + 16777216 * bytes p (a + 3)).
Definition node_ts (q : queue) (n : Z) : outcome Z :=
  let! nd := deref q n in stored_ts (q_mp q) (n_m nd).

(** mq_addMessage, HvMessageQueue.c:59-80. *)
Definition mq_addMessage (q : queue) (srcSize : Z) (img : list Z) (let_ send : Z) : outcome (queue * Z) :=
  let! (q1, n) := mq_getNode q in
  let! (p, a) := PoolModel.mp_addMessage (q_mp q1) srcSize img in
  let! q2 := upd (set_mp q1 p) n (with_msg a let_ send) in
  let! q3 := upd q2 n (with_prev 0) in
  let! q4 := upd q3 n (with_next 0) in
  if negb (q_tail q4 =? 0) then
    let! q5 := upd q4 (q_tail q4) (with_next n) in
    let! q6 := upd q5 n (with_prev (q_tail q5)) in
    Ok (set_tail q6 n, a)
  else
    let! q5 := upd q4 n (with_prev 0) in
    Ok (set_tail (set_head q5 n) n, a).

(** The loop of HvMessageQueue.c:105-115. *)
Fixpoint insert_loop (fuel : nat) (q : queue) (ts n node_ : Z) : outcome queue :=
  match fuel with
  | O => UB
  | S fuel' =>
    if node_ =? 0 then Ok q else
    let! nd := deref q node_ in
    let! tn := node_ts q (n_next nd) in
    if ts <? tn then
      let r := n_next nd in
      let! q1 := upd q node_ (with_next n) in
      let! q2 := upd q1 n (with_next r) in
      let! q3 := upd q2 n (with_prev node_) in
      upd q3 r (with_prev n)
    else insert_loop fuel' q ts n (n_next nd)
  end.

(** mq_addMessageByTimestamp, HvMessageQueue.c:82-122. *)
Definition mq_addMessageByTimestamp (q : queue) (srcSize : Z) (img : list Z) (let_ send : Z)
  : outcome (queue * Z) :=
  if mq_hasMessage q then
    let! (q1, n) := mq_getNode q in
    let! (p, a) := PoolModel.mp_addMessage (q_mp q1) srcSize img in
    let! q2 := upd (set_mp q1 p) n (with_msg a let_ send) in
    let ts := img_ts img in
    let! th := node_ts q2 (q_head q2) in
    if ts <? th then
      let! q3 := upd q2 n (with_next (q_head q2)) in
      let! q4 := upd q3 (q_head q3) (with_prev n) in
      let! q5 := upd q4 n (with_prev 0) in
      Ok (set_head q5 n, a)
    else
      let! tl_ := node_ts q2 (q_tail q2) in
      if tl_ <=? ts then
        let! q3 := upd q2 n (with_next 0) in
        let! q4 := upd q3 n (with_prev (q_tail q3)) in
        let! q5 := upd q4 (q_tail q4) (with_next n) in
        Ok (set_tail q5 n, a)
      else
        let! q3 := insert_loop (S (Z.to_nat (q_nalloc q2))) q2 ts n (q_head q2) in
        Ok (q3, a)
  else mq_addMessage q srcSize img let_ send.

(** mq_pop, HvMessageQueue.c:124-144. *)
Definition mq_pop (q : queue) : outcome queue :=
  if mq_hasMessage q then
    let n := q_head q in
    let! nd := deref q n in
    let! p := PoolModel.mp_freeMessage (q_mp q) (n_m nd) in
    let! q1 := upd (set_mp q p) n (with_msg NULLM 0 0) in
    let! nd1 := deref q1 n in
    let q2 := set_head q1 (n_next nd1) in
    let! q3 := (if q_head q2 =? 0 then Ok (set_tail q2 0) else upd q2 (q_head q2) (with_prev 0)) in
    let! q4 := upd q3 n (with_next (q_pool q3)) in
    let! q5 := upd q4 n (with_prev 0) in
    Ok (set_pool q5 n)
  else Ok q.

(** The search loop of HvMessageQueue.c:158-161; returns (prevNode, currNode). *)
Fixpoint find_loop (fuel : nat) (q : queue) (m prevN currN : Z) : outcome (Z * Z) :=
  match fuel with
  | O => UB
  | S fuel' =>
    if currN =? 0 then Ok (prevN, currN) else
    let! nd := deref q currN in
    if n_m nd =? m then Ok (prevN, currN) else find_loop fuel' q m currN (n_next nd)
  end.

(** mq_removeMessage, HvMessageQueue.c:146-184. *)
Definition mq_removeMessage (q : queue) (m send : Z) : outcome (queue * bool) :=
  if mq_hasMessage q then
    let! hd_ := deref q (q_head q) in
    if n_m hd_ =? m then
      if (send =? 0) || (n_send hd_ =? send) then let! q1 := mq_pop q in Ok (q1, true) else Ok (q, false)
    else
      let! (prevN, currN) := find_loop (S (S (Z.to_nat (q_nalloc q)))) q m (q_head q) (n_next hd_) in
      if currN =? 0 then Ok (q, false) else
      let! nd := deref q currN in
      if (send =? 0) || (n_send nd =? send) then
        let! p := PoolModel.mp_freeMessage (q_mp q) m in
        let! q1 := upd (set_mp q p) currN (with_msg NULLM 0 0) in
        let! q2 := (if currN =? q_tail q1 then
                      let! q2 := upd q1 prevN (with_next 0) in Ok (set_tail q2 prevN)
                    else
                      let! nd1 := deref q1 currN in
                      let! q2 := upd q1 prevN (with_next (n_next nd1)) in
                      upd q2 (n_next nd1) (with_prev prevN)) in
        let! q3 := upd q2 currN (with_next (q_pool q2)) in
        let! q4 := upd q3 currN (with_prev 0) in
        Ok (set_pool q4 currN, true)
      else Ok (q, false)
  else Ok (q, false).

(** mq_clear, HvMessageQueue.c:186-190. *)
Fixpoint clear_loop (fuel : nat) (q : queue) : outcome queue :=
  if mq_hasMessage q then
    match fuel with O => UB | S fuel' => let! q1 := mq_pop q in clear_loop fuel' q1 end
  else Ok q.
Definition mq_clear (q : queue) : outcome queue := clear_loop (Z.to_nat (q_nalloc q)) q.

(** mq_clearAfter, HvMessageQueue.c:192-215. *)
Fixpoint clearAfter_loop (fuel : nat) (q : queue) (timestamp n : Z) : outcome queue :=
  match fuel with
  | O => UB
  | S fuel' =>
    if n =? 0 then Ok q else
    let! nd := deref q n in
    let! t := stored_ts (q_mp q) (n_m nd) in
    if timestamp <=? t then
      let! p := PoolModel.mp_freeMessage (q_mp q) (n_m nd) in
      let! q1 := upd (set_mp q p) n (with_msg NULLM 0 0) in
      let q2 := set_tail q1 (n_prev nd) in
      let! q3 := upd q2 n (with_next (q_pool q2)) in
      let! q4 := upd q3 n (with_prev 0) in
      let! q5 := (if q_pool q4 =? 0 then Ok q4 else upd q4 (q_pool q4) (with_prev n)) in
      let q6 := set_pool q5 n in
      clearAfter_loop fuel' q6 timestamp (q_tail q6)
    else Ok q
  end.
Definition mq_clearAfter (q : queue) (timestamp : Z) : outcome queue :=
  let! q1 := clearAfter_loop (S (Z.to_nat (q_nalloc q))) q timestamp (q_tail q) in
  Ok (if q_tail q1 =? 0 then set_head q1 0 else q1).

(** mq_size, HvMessageQueue.c:49-57. *)
Fixpoint size_loop (fuel : nat) (q : queue) (n : Z) : outcome Z :=
  match fuel with
  | O => UB
  | S fuel' => if n =? 0 then Ok 0 else
      let! nd := deref q n in let! k := size_loop fuel' q (n_next nd) in Ok (1 + k)
  end.
Definition mq_size (q : queue) : outcome Z := size_loop (S (Z.to_nat (q_nalloc q))) q (q_head q).

(** Reading the message a node points to: as many bytes as its header says. *)
Definition read_bytes (p : pool) (a : Z) : outcome (list Z) :=
  let! k := stored_size p a in
  guard! in_pool p a k in
  Ok (map (fun j => bytes p (a + Z.of_nat j)) (seq 0 (Z.to_nat k))).

(** mq_peek (HvMessageQueue.h:72-74) followed by reading the node. *)
Definition mq_peek_msg (q : queue) : outcome (option (list Z * Z * Z)) :=
  if mq_hasMessage q then
    let! nd := deref q (q_head q) in
    let! img := read_bytes (q_mp q) (n_m nd) in
    Ok (Some (img, n_let nd, n_send nd))
  else Ok None.

(** Client histories.  [Take] is peek + pop (the use in process(), templates/Heavy_NAME.cpp). *)
Inductive q_op :=
| Schedule (srcSize : Z) (img : list Z) (let_ send : Z)
| Take
| Cancel (handle send : Z)
| Size
| Clear
| ClearAfter (timestamp : Z).
Inductive q_res :=
| RHandle (a : Z)
| RTaken (r : option (list Z * Z * Z))
| RCancelled (b : bool)
| RSize (n : Z)
| RDone.

Definition q_step (q : queue) (o : q_op) : outcome (queue * q_res) :=
  match o with
  | Schedule srcSize img let_ send =>
      let! (q', a) := mq_addMessageByTimestamp q srcSize img let_ send in Ok (q', RHandle a)
  | Take => let! r := mq_peek_msg q in let! q' := mq_pop q in Ok (q', RTaken r)
  | Cancel a send => let! (q', b) := mq_removeMessage q a send in Ok (q', RCancelled b)
  | Size => let! n := mq_size q in Ok (q, RSize n)
  | Clear => let! q' := mq_clear q in Ok (q', RDone)
  | ClearAfter t => let! q' := mq_clearAfter q t in Ok (q', RDone)
  end.

Fixpoint q_run (q : queue) (ops : list q_op) : outcome (queue * list q_res) :=
  match ops with
  | [] => Ok (q, [])
  | o :: ops' => let! (q', r) := q_step q o in let! (q'', rs) := q_run q' ops' in Ok (q'', r :: rs)
  end.
