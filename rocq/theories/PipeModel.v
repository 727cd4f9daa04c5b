(** Model of the single-producer/single-consumer byte pipe
    /repo/hvcc/generators/ir2c/static/HvLightPipe.c (all functions) as an
    interleaving of individual memory accesses.

    Simplifications: memory is sequentially consistent (hv_sfence, lines 19-39, is a
    no-op in such a memory); a 4-byte access is atomic (it is 4-aligned when all record
    sizes are multiples of four); pointers into the buffer are offsets from q->buffer;
    hv_malloc succeeds; each payload byte is written/read by its own access. *)
From Verif Require Export Base.

(** Byte memory; only offsets in [0,len) exist, accesses elsewhere are [UB]. *)
Definition mem := Z -> Z.
Definition upd (m : mem) (a v : Z) : mem := fun x => if Z.eqb x a then v else m x.

(** HvLightPipe.c:44 HLP_GET_UINT32_AT_BUFFER (little endian). *)
Definition rd32 (m : mem) (a : Z) : Z :=
  m a + 256 * m (a + 1) + 65536 * m (a + 2) + 16777216 * m (a + 3).
(** HvLightPipe.c:43 HLP_SET_UINT32_AT_BUFFER. *)
Definition wr32 (m : mem) (a v : Z) : mem :=
  upd (upd (upd (upd m a (v mod 256)) (a + 1) ((v / 256) mod 256))
         (a + 2) ((v / 65536) mod 256)) (a + 3) ((v / 16777216) mod 256).

Definition HLP_STOP : Z := 0.                    (* HvLightPipe.c:41 *)
Definition HLP_LOOP : Z := 4294967295.           (* HvLightPipe.c:42 *)

(** Program counter of the producer thread: what it has to do next.
    The producer runs  p = hLp_getWriteBuffer(q,n); fill p; hLp_produce(q,n)
    (as in HeavyContext.cpp:123-129). *)
Inductive ppc :=
| P_idle
| P_enter (r : list Z)             (* about to read q->readHead            (l.75) *)
| P_check (r : list Z) (rhs : Z)   (* rhs = snapshot of q->readHead        (l.76-103) *)
| P_wrapstop (r : list Z) (old : Z)(* write STOP at q->buffer              (l.95) *)
| P_wraploop (r : list Z) (old : Z)(* write LOOP at oldWriteHead           (l.97) *)
| P_fill (r : list Z) (i : nat)    (* caller writes payload byte i *)
| P_prod (r : list Z)              (* hLp_produce: assert, advance, write STOP (l.107-111) *)
| P_commit (r : list Z) (old : Z). (* hLp_produce: write length word       (l.117) *)

(** Program counter of the consumer thread, which runs
    while (hLp_hasData(q)) { b = hLp_getReadBuffer(q,&n); use b[0..n); hLp_consume(q); }
    (as in Heavy_NAME.cpp process() and HeavyContext.cpp:204-215). *)
Inductive cpc :=
| C_idle                           (* hLp_hasData: read word at readHead   (l.66) *)
| C_loop                           (* hLp_hasData: readHead = buffer       (l.68) *)
| C_again                          (* hLp_hasData: read word again         (l.69) *)
| C_have                           (* hLp_getReadBuffer: read length       (l.121) *)
| C_read (n : Z) (acc : list Z)    (* user reads payload byte |acc| *)
| C_cons1                          (* hLp_consume: assert word <> STOP     (l.127) *)
| C_cons2.                         (* hLp_consume: advance readHead        (l.128) *)

Record pipe := mkPipe {
  len : Z;             (* HvLightPipe.h:34 *)
  buf : mem;           (* HvLightPipe.h:31 *)
  rh  : Z;             (* HvLightPipe.h:33, written by the consumer only *)
  wh  : Z;             (* HvLightPipe.h:32, used by the producer only *)
  rem : Z;             (* HvLightPipe.h:35, used by the producer only *)
  pp  : ppc;
  cp  : cpc;
  sent : list (list Z);     (* history: records committed by the producer *)
  recv : list (list Z);     (* history: records handed to the consumer *)
  refused : list (list Z)   (* history: records for which NULL was returned *)
}.

Definition set_p (s : pipe) (p : ppc) : pipe :=
  mkPipe (len s) (buf s) (rh s) (wh s) (rem s) p (cp s) (sent s) (recv s) (refused s).
Definition set_c (s : pipe) (c : cpc) : pipe :=
  mkPipe (len s) (buf s) (rh s) (wh s) (rem s) (pp s) c (sent s) (recv s) (refused s).
Definition set_buf (s : pipe) (m : mem) : pipe :=
  mkPipe (len s) m (rh s) (wh s) (rem s) (pp s) (cp s) (sent s) (recv s) (refused s).
Definition set_w (s : pipe) (w r : Z) : pipe :=
  mkPipe (len s) (buf s) (rh s) w r (pp s) (cp s) (sent s) (recv s) (refused s).
Definition set_rh (s : pipe) (r : Z) : pipe :=
  mkPipe (len s) (buf s) r (wh s) (rem s) (pp s) (cp s) (sent s) (recv s) (refused s).
Definition log_sent (s : pipe) (r : list Z) : pipe :=
  mkPipe (len s) (buf s) (rh s) (wh s) (rem s) (pp s) (cp s) (sent s ++ [r]) (recv s) (refused s).
Definition log_recv (s : pipe) (r : list Z) : pipe :=
  mkPipe (len s) (buf s) (rh s) (wh s) (rem s) (pp s) (cp s) (sent s) (recv s ++ [r]) (refused s).
Definition log_refused (s : pipe) (r : list Z) : pipe :=
  mkPipe (len s) (buf s) (rh s) (wh s) (rem s) (pp s) (cp s) (sent s) (recv s) (refused s ++ [r]).

(** Bounds-checked accesses. *)
Definition in_buf (s : pipe) (a k : Z) : bool := (0 <=? a) && (a + k <=? len s).
Definition load32 (s : pipe) (a : Z) : outcome Z :=
  guard! in_buf s a 4 in Ok (rd32 (buf s) a).
Definition store32 (s : pipe) (a v : Z) : outcome pipe :=
  guard! in_buf s a 4 in Ok (set_buf s (wr32 (buf s) a v)).
Definition load8 (s : pipe) (a : Z) : outcome Z :=
  guard! in_buf s a 1 in Ok (buf s a).
Definition store8 (s : pipe) (a v : Z) : outcome pipe :=
  guard! in_buf s a 1 in Ok (set_buf s (upd (buf s) a v)).

(** hLp_init, HvLightPipe.c:46-59, for numBytes > 0 (numBytes = 0 leaves a NULL buffer:
    every later access is then undefined, [in_buf] with len = 0). The initial memory
    content [junk] is what malloc returned. *)
Definition hLp_init (junk : mem) (numBytes : Z) : outcome pipe :=
  let s := mkPipe numBytes junk 0 0 numBytes P_idle C_idle [] [] [] in
  if 0 <? numBytes then store32 s 0 HLP_STOP else Ok s.

(** One producer step. *)
Definition pstep (s : pipe) : outcome pipe :=
  match pp s with
  | P_idle => Ok s
  | P_enter r => Ok (set_p s (P_check r (rh s)))                           (* l.75 *)
  | P_check r rhs =>
      let n := zlen r in
      let total := u32 (n + 8) in                                          (* l.77 *)
      if total <=? rem s then                                              (* l.81 *)
        if (wh s <? rhs) && (rhs <=? wh s + 4 + n)                         (* l.85 *)
        then Ok (log_refused (set_p s P_idle) r)
        else Ok (set_p s (P_fill r 0))                                     (* l.86 *)
      else if total <=? len s then                                         (* l.89 *)
        if (wh s <? rhs) || (rhs <? total)                                 (* l.90 *)
        then Ok (log_refused (set_p s P_idle) r)
        else Ok (set_p (set_w s 0 (len s)) (P_wrapstop r (wh s)))          (* l.93-94 *)
      else Ok (log_refused (set_p s P_idle) r)                             (* l.101 *)
  | P_wrapstop r old =>
      let! s1 := store32 s 0 HLP_STOP in Ok (set_p s1 (P_wraploop r old))  (* l.95 *)
  | P_wraploop r old =>
      let! s1 := store32 s old HLP_LOOP in Ok (set_p s1 (P_fill r 0))      (* l.97 *)
  | P_fill r i =>
      match nth_error r i with
      | Some b => let! s1 := store8 s (wh s + 4 + Z.of_nat i) b in
                  Ok (set_p s1 (P_fill r (S i)))
      | None => Ok (set_p s (P_prod r))
      end
  | P_prod r =>
      let n := zlen r in
      assert! u32 (n + 8) <=? rem s in                                     (* l.107 *)
      let old := wh s in
      let s1 := set_w s (wh s + 4 + n) (u32 (rem s - (4 + n))) in          (* l.108-110 *)
      let! s2 := store32 s1 (wh s1) HLP_STOP in                            (* l.111 *)
      Ok (set_p s2 (P_commit r old))
  | P_commit r old =>
      let! s1 := store32 s old (zlen r) in                                 (* l.117 *)
      Ok (log_sent (set_p s1 P_idle) r)
  end.

(** One consumer step. *)
Definition cstep (s : pipe) : outcome pipe :=
  match cp s with
  | C_idle =>
      let! x := load32 s (rh s) in                                         (* l.66 *)
      if x =? HLP_LOOP then Ok (set_c s C_loop)                            (* l.67 *)
      else if x =? 0 then Ok s else Ok (set_c s C_have)                    (* l.71 *)
  | C_loop => Ok (set_c (set_rh s 0) C_again)                              (* l.68 *)
  | C_again =>
      let! x := load32 s (rh s) in                                         (* l.69 *)
      if x =? 0 then Ok (set_c s C_idle) else Ok (set_c s C_have)
  | C_have =>
      let! x := load32 s (rh s) in                                         (* l.121 *)
      Ok (set_c s (C_read x []))
  | C_read n acc =>
      if zlen acc <? n then
        let! b := load8 s (rh s + 4 + zlen acc) in                         (* l.122 *)
        Ok (set_c s (C_read n (acc ++ [b])))
      else Ok (log_recv (set_c s C_cons1) acc)
  | C_cons1 =>
      let! x := load32 s (rh s) in
      assert! negb (x =? HLP_STOP) in Ok (set_c s C_cons2)                 (* l.127 *)
  | C_cons2 =>
      let! x := load32 s (rh s) in
      Ok (set_c (set_rh s (rh s + (4 + x))) C_idle)                        (* l.128 *)
  end.

(** Scheduler choices: the producer is asked to send a record (ignored while it is still
    busy with another one), or one of the two threads performs its next access. *)
Inductive label := Send (r : list Z) | Prod | Cons.

Definition step (s : pipe) (l : label) : outcome pipe :=
  match l with
  | Send r => match pp s with P_idle => Ok (set_p s (P_enter r)) | _ => Ok s end
  | Prod => pstep s
  | Cons => cstep s
  end.

Fixpoint run (s : pipe) (ls : list label) : outcome pipe :=
  match ls with
  | [] => Ok s
  | l :: ls' => let! s1 := step s l in run s1 ls'
  end.

(** hLp_reset, HvLightPipe.c:131-136 (only allowed while both threads are idle). *)
Definition hLp_reset (s : pipe) : pipe :=
  mkPipe (len s) (fun a => if (0 <=? a) && (a <? len s) then 0 else buf s a)
         0 0 (len s) P_idle C_idle (sent s) (recv s) (refused s).
