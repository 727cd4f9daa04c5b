(** Model of /repo/hvcc/generators/ir2c/static/HvTable.c, HvControlTabread.c, HvControlTabwrite.c,
    HvControlTabhead.c and table lookup.

    [N] is HV_N_SIMD (1, 4 or 8).  A table's buffer is a memory block: a list of cells, [None] for
    memory that was never written.  Allocation is assumed to succeed (the code asserts it).  The
    unused return values (sizes in bytes) are not modelled. *)
From Verif Require Export Float32.

Section Table.
Context {V : Type}.
Variable vzero : V.
Variable N : Z.

Record table := mkTable {
  t_mem : list (option V);   (* the block [buffer] points to *)
  t_heap : bool;             (* did malloc return it? (else a static array) *)
  t_length : Z; t_size : Z; t_allocated : Z; t_head : Z }.

(** (length + HV_N_SIMD_MASK) & ~HV_N_SIMD_MASK, HvTable.c:23,36,63. *)
Definition pad (len : Z) : Z := Z.land (u32 (len + (N - 1))) (Z.lnot (N - 1)).

Definition fresh_block (n : Z) : list (option V) := repeat None (Z.to_nat n).
(** memset/memcpy on a block: undefined outside of it. *)
Definition clear_cells (m : list (option V)) (from n : Z) : outcome (list (option V)) :=
  if (0 <=? from) && (0 <=? n) && (from + n <=? zlen m)
  then Ok (firstn (Z.to_nat from) m ++ repeat (Some vzero) (Z.to_nat n) ++ skipn (Z.to_nat (from + n)) m)
  else UB.
Definition write_cells (m : list (option V)) (from : Z) (d : list (option V)) : outcome (list (option V)) :=
  if (0 <=? from) && (from + zlen d <=? zlen m)
  then Ok (firstn (Z.to_nat from) m ++ d ++ skipn (Z.to_nat (from + zlen d)) m)
  else UB.
Definition read_cells (m : list (option V)) (from n : Z) : outcome (list (option V)) :=
  if (0 <=? from) && (0 <=? n) && (from + n <=? zlen m)
  then Ok (firstn (Z.to_nat n) (skipn (Z.to_nat from) m)) else UB.
(** realloc: the common prefix is kept, anything new is uninitialised. *)
Definition realloc_block (m : list (option V)) (n : Z) : list (option V) :=
  firstn (Z.to_nat n) m ++ repeat None (Z.to_nat n - length m).

(** hTable_init, HvTable.c:20-32; [length] is an int, the sum in line 23 must not overflow. *)
Definition hTable_init (len : Z) : outcome table :=
  if (0 <=? len) && (len + (N - 1) <=? int_max) then
    let size := pad len in
    let alloc := u32 (size + N) in
    let! m := clear_cells (fresh_block alloc) 0 alloc in
    Ok (mkTable m true len size alloc 0)
  else UB.
(** hTable_initWithData, HvTable.c:34-45: allocates [size] cells but records size + N. *)
Definition hTable_initWithData (len : Z) (data : list V) : outcome table :=
  if (0 <=? len) && (len + (N - 1) <=? int_max) then
    let size := pad len in
    let! m := clear_cells (fresh_block size) 0 size in
    let! d := read_cells (map Some data) 0 len in
    let! m1 := write_cells m 0 d in
    Ok (mkTable m1 true len size (u32 (size + N)) 0)
  else UB.
(** hTable_initWithFinalData, HvTable.c:47-54. *)
Definition hTable_initWithFinalData (len : Z) (data : list V) : table :=
  mkTable (map Some data) false len len len 0.

(** hTable_resize, HvTable.c:60-94.  [aligned]: whether realloc's block happens to pass the test
    of line 72.  Byte counts are 32 bit (lines 65, 67). *)
Definition hTable_resize (aligned : bool) (t : table) (newLength : Z) : outcome table :=
  let newSize := pad newLength in
  if newSize =? t_size t then Ok t
  else if negb (t_heap t) then UB   (* realloc of memory malloc did not return *)
  else
    let oldBytes := u32 (t_size t * 4) in
    let newAllocated := u32 (newSize + N) in
    let newBytes := u32 (newAllocated * 4) in
    let b := realloc_block (t_mem t) (newBytes / 4) in
    let! m :=
      (if aligned then
         if t_size t <? newSize
         then clear_cells b (t_size t) (newAllocated - t_size t)                 (* l.74 *)
         else Ok b
       else
         let c := fresh_block (newBytes / 4) in
         if oldBytes <? newBytes then
           let! d := read_cells b 0 (oldBytes / 4) in
           let! c1 := write_cells c 0 d in
           clear_cells c1 (oldBytes / 4) ((newBytes - oldBytes) / 4)             (* l.82-83 *)
         else
           let! d := read_cells b 0 (newBytes / 4) in write_cells c 0 d) in      (* l.85 *)
    Ok (mkTable m true newLength newSize newAllocated (t_head t)).

(** The "mirror" message, HvTable.c:107-109. *)
Definition hTable_mirror (t : table) : outcome table :=
  let! d := read_cells (t_mem t) 0 N in
  let! m := write_cells (t_mem t) (t_size t) d in
  Ok (mkTable m (t_heap t) (t_length t) (t_size t) (t_allocated t) (t_head t)).

(** buffer[x], HvControlTabread.c:32; reading an uninitialised cell is undefined too. *)
Definition get (t : table) (x : Z) : outcome V :=
  if (0 <=? x) && (x <? zlen (t_mem t)) then
    match nth (Z.to_nat x) (t_mem t) None with Some v => Ok v | None => UB end
  else UB.
(** buffer[x] = v, HvControlTabwrite.c:30. *)
Definition put (t : table) (x : Z) (v : V) : outcome table :=
  let! m := write_cells (t_mem t) x [Some v] in
  Ok (mkTable m (t_heap t) (t_length t) (t_size t) (t_allocated t) (t_head t)).

(** *** Control access.  All tables of the patch are a list; an object holds an index into it,
    or [None] for a NULL table (unknown name). *)
Record world := mkWorld {
  w_tables : list table;
  w_rd : option nat;                 (* ControlTabread.table *)
  w_wr : option nat; w_x : Z;        (* ControlTabwrite.table, .x *)
  w_log : list V                     (* values sent by the reader *)
}.
Definition tab (w : world) (i : nat) : table := nth i (w_tables w) (mkTable [] true 0 0 0 0).
Fixpoint set_nth (i : nat) (t : table) (l : list table) : list table :=
  match l with [] => [] | x :: l' => match i with O => t :: l' | S j => x :: set_nth j t l' end end.
Definition with_tables (w : world) (l : list table) := mkWorld l (w_rd w) (w_wr w) (w_x w) (w_log w).

Inductive table_op :=
| ReadAt (f : f32)               (* float on the reader's left inlet *)
| ReaderTable (i : option nat)   (* name on its right inlet, looked up *)
| WriteX (f : f32)               (* writer's index inlet *)
| WriterTable (i : option nat)
| WriteY (v : V)                 (* writer's value inlet *)
| Resize (i : nat) (f : f32) (aligned : bool)   (* "resize f" to a table (HvTable.c:98-99) *)
| Mirror (i : nat).

(** [cast]: the conversion (hv_uint32_t) f for f >= 0.  C leaves it undefined from 2^32 on (and
    for infinity); here it yields any 32 bit value there, the processor's choice. *)
Variable cast : f32 -> Z.
(** hv_ceil_f then (int). *)
Variable ceil_int : f32 -> outcome Z.

Definition table_step (w : world) (o : table_op) : outcome world :=
  match o with
  | ReadAt f =>      (* cTabread_onMessage case 0, HvControlTabread.c:27-37 *)
      match w_rd w with
      | Some i =>
        if fleb fzero f then
          let x := cast f in
          if x <? t_size (tab w i) then
            let! v := get (tab w i) x in
            Ok (mkWorld (w_tables w) (w_rd w) (w_wr w) (w_x w) (w_log w ++ [v]))
          else Ok w
        else Ok w
      | None => Ok w
      end
  | ReaderTable i => Ok (mkWorld (w_tables w) i (w_wr w) (w_x w) (w_log w))
  | WriteX f =>      (* cTabwrite_onMessage case 1, HvControlTabwrite.c:34-42 *)
      match w_wr w with
      | Some i =>
        if fleb fzero f then
          let x := cast f in
          if x <? t_size (tab w i) then Ok (mkWorld (w_tables w) (w_rd w) (w_wr w) x (w_log w)) else Ok w
        else Ok w
      | None => Ok w
      end
  | WriterTable i => Ok (mkWorld (w_tables w) (w_rd w) i (w_x w) (w_log w))
  | WriteY v =>      (* case 0, HvControlTabwrite.c:28-33: no check of x *)
      match w_wr w with
      | Some i => let! t := put (tab w i) (w_x w) v in Ok (with_tables w (set_nth i t (w_tables w)))
      | None => Ok w
      end
  | Resize i f aligned =>
      if fleb fzero f then
        let! n := ceil_int f in
        let! t := hTable_resize aligned (tab w i) n in Ok (with_tables w (set_nth i t (w_tables w)))
      else Ok w
  | Mirror i => let! t := hTable_mirror (tab w i) in Ok (with_tables w (set_nth i t (w_tables w)))
  end.
Fixpoint table_run (w : world) (ops : list table_op) : outcome world :=
  match ops with [] => Ok w | o :: ops' => let! w1 := table_step w o in table_run w1 ops' end.
End Table.
Arguments table : clear implicits. Arguments world : clear implicits. Arguments table_op : clear implicits.
Arguments mkTable {V}.
