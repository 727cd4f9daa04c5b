(** Model of the message pool, /repo/hvcc/generators/ir2c/static/HvMessagePool.c.

    The pool buffer is byte-addressed memory (offsets from mp->buffer).  A message to be stored is
    given by the size its header claims ([srcSize] = msg_getSize(m), HvMessage.h:95) and by the
    byte image [img] that msg_copyToBuffer (HvMessage.c:58-82) writes; the image's own header
    stores its true length in bytes 6..7 (HvMessage.h:45, HvMessage.c:81), which is what
    mp_freeMessage later reads back.

    Simplifications: hv_malloc succeeds; the recycled MessageListNode cells (HvMessagePool.c:27-61)
    are not modelled separately - a free list is a list of chunk offsets, most recently pushed
    first; the bytes that a failing msg_copyToBuffer may write before its assertion are not
    modelled (the program aborts). *)
From Verif Require Export Base.

Definition MP_BLOCK_SIZE_BYTES : Z := 512.        (* HvMessagePool.c:21 *)
Definition MP_NUM_MESSAGE_LISTS : Z := 4.         (* HvMessagePool.h:25 *)

Definition pmem := Z -> Z.

Record pool := mkPool {
  bsize : Z;                 (* bufferSize,  HvMessagePool.h:39 *)
  bidx  : Z;                 (* bufferIndex, HvMessagePool.h:40 *)
  lists : Z -> list Z;       (* lists[i].head chain of chunk offsets, HvMessagePool.h:42 *)
  bytes : pmem               (* buffer,      HvMessagePool.h:38 *)
}.

Definition set_list (ls : Z -> list Z) (i : Z) (l : list Z) : Z -> list Z :=
  fun j => if j =? i then l else ls j.

(** hv_min_max_log2 (HvUtils.h:273-275): 32 - clz(x-1); clz(0) is undefined. *)
Definition hv_min_max_log2 (x : Z) : outcome Z :=
  let y := u32 (x - 1) in
  if y =? 0 then UB else Ok (Z.log2 y + 1).

(** mp_messagelistIndexForSize, HvMessagePool.c:80-82 (the unsigned difference is converted to
    a signed 32-bit int by hv_max_i, so small sizes give 0). *)
Definition mp_messagelistIndexForSize (b : Z) : outcome Z :=
  let! l := hv_min_max_log2 b in Ok (Z.max (l - 5) 0).

(** mp_init, HvMessagePool.c:84-97. *)
Definition mp_init (junk : pmem) (numKB : Z) : pool :=
  mkPool (numKB * 1024) 0 (fun _ => []) junk.

(** Write a byte image at an offset (hv_memcpy / hv_strncpy in msg_copyToBuffer, memset). *)
Definition write_bytes (m : pmem) (a : Z) (img : list Z) : pmem :=
  fun x => if (a <=? x) && (x <? a + zlen img) then nth (Z.to_nat (x - a)) img 0 else m x.
Definition in_pool (p : pool) (a k : Z) : bool := (0 <=? a) && (a + k <=? bsize p).

(** msg_copyToBuffer(m, buf, chunkSize): HvMessage.c:64,73 assert that it fits. *)
Definition copy_to (p : pool) (a chunk : Z) (img : list Z) : outcome pool :=
  assert! zlen img <=? chunk in
  guard! in_pool p a (zlen img) in
  Ok (mkPool (bsize p) (bidx p) (lists p) (write_bytes (bytes p) a img)).

(** ml_pop (HvMessagePool.c:36-44): NULL head is undefined behaviour. *)
Definition ml_pop (p : pool) (i : Z) : outcome (pool * Z) :=
  match lists p i with
  | [] => UB
  | a :: l => Ok (mkPool (bsize p) (bidx p) (set_list (lists p) i l) (bytes p), a)
  end.
(** ml_push (HvMessagePool.c:47-61). *)
Definition ml_push (p : pool) (i a : Z) : pool :=
  mkPool (bsize p) (bidx p) (set_list (lists p) i (a :: lists p i)) (bytes p).

(** The for loop of HvMessagePool.c:136-138: push [k] chunks starting at [j]. *)
Fixpoint push_chunks (p : pool) (i j chunk : Z) (k : nat) : pool :=
  match k with
  | O => p
  | S k' => push_chunks (ml_push p i j) i (j + chunk) chunk k'
  end.

(** mp_addMessage, HvMessagePool.c:115-144. *)
Definition mp_addMessage (p : pool) (srcSize : Z) (img : list Z) : outcome (pool * Z) :=
  let! i := mp_messagelistIndexForSize srcSize in                      (* l.119 *)
  assert! i <? MP_NUM_MESSAGE_LISTS in                                 (* l.121 *)
  let chunk := Z.shiftl 32 i in                                        (* l.123 *)
  match lists p i with
  | _ :: _ =>                                                          (* l.125-128 *)
      let! (p1, a) := ml_pop p i in
      let! p2 := copy_to p1 a chunk img in Ok (p2, a)
  | [] =>
      let newIndex := bidx p + MP_BLOCK_SIZE_BYTES in                  (* l.131 *)
      assert! newIndex <=? bsize p in                                  (* l.132 *)
      let p1 := push_chunks p i (bidx p) chunk (Z.to_nat (MP_BLOCK_SIZE_BYTES / chunk)) in  (* l.136-138 *)
      let p2 := mkPool (bsize p1) newIndex (lists p1) (bytes p1) in    (* l.139 *)
      let! (p3, a) := ml_pop p2 i in                                   (* l.140 *)
      let! p4 := copy_to p3 a chunk img in Ok (p4, a)                  (* l.141-142 *)
  end.

(** msg_getSize of a message stored at [a]: the u16 at offset 6 (HvMessage.h:42-47,95). *)
Definition stored_size (p : pool) (a : Z) : outcome Z :=
  guard! in_pool p a 8 in Ok (bytes p (a + 6) + 256 * bytes p (a + 7)).

(** mp_freeMessage, HvMessagePool.c:106-113.  An index >= 4 would index past mp->lists. *)
Definition mp_freeMessage (p : pool) (a : Z) : outcome pool :=
  let! b := stored_size p a in                                         (* l.107 *)
  let! i := mp_messagelistIndexForSize b in                            (* l.108 *)
  guard! i <? MP_NUM_MESSAGE_LISTS in                                  (* l.109 *)
  let chunk := Z.shiftl 32 i in                                        (* l.110 *)
  guard! in_pool p a chunk in
  let p1 := mkPool (bsize p) (bidx p) (lists p)
              (write_bytes (bytes p) a (repeat 0 (Z.to_nat chunk))) in (* l.111 *)
  Ok (ml_push p1 i a).                                                 (* l.112 *)

(** Client histories.  [Free k] frees the k-th live message (ignored if there is none). *)
Inductive pool_op := Add (srcSize : Z) (img : list Z) | Free (k : nat).

Definition remove_nth {A} (k : nat) (l : list A) : list A := firstn k l ++ skipn (S k) l.

(** Live messages: address returned by mp_addMessage and the image stored there. *)
Definition pool_step (st : pool * list (Z * list Z)) (o : pool_op) : outcome (pool * list (Z * list Z)) :=
  let (p, live) := st in
  match o with
  | Add srcSize img => let! (p', a) := mp_addMessage p srcSize img in Ok (p', (a, img) :: live)
  | Free k => match nth_error live k with
              | None => Ok st
              | Some (a, _) => let! p' := mp_freeMessage p a in Ok (p', remove_nth k live)
              end
  end.

Fixpoint pool_run (st : pool * list (Z * list Z)) (ops : list pool_op) : outcome (pool * list (Z * list Z)) :=
  match ops with
  | [] => Ok st
  | o :: ops' => let! st' := pool_step st o in pool_run st' ops'
  end.
