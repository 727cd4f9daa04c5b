(** Model of the signal objects that read and write tables:
    /repo/hvcc/generators/ir2c/static/HvSignalTabread.h/.c and HvSignalTabwrite.h/.c.

    [N] is HV_N_SIMD.  A vector is a list of N values.  The table's buffer is aligned (HvTable.c
    allocates it with hv_malloc), so that an aligned load or store faults exactly when the head is no
    multiple of N; a fault is [UB].  A table is the record of TableModel. *)
From Verif Require Export TableModel.

Section SigTab.
Context {V : Type}.
Variable vzero : V.
Variable N : Z.

Record reader := mkReader { r_head : Z; r_end : Z; r_forced : bool; r_playing : bool }.

(** sTabread_init, HvSignalTabread.c:19-26. *)
Definition sTabread_init (t : table V) (forced : bool) : reader := mkReader 0 (t_size t) forced false.

(** _mm_load_ps / _mm_loadu_ps / vld1q_f32 / plain load of N values at buffer + h. *)
Fixpoint all_init (l : list (option V)) : outcome (list V) :=
  match l with
  | [] => Ok []
  | Some v :: l' => let! r := all_init l' in Ok (v :: r)
  | None :: _ => UB
  end.
Definition load (must_align : bool) (t : table V) (h : Z) : outcome (list V) :=
  guard! (negb must_align || (h mod N =? 0)) in
  let! d := read_cells (t_mem t) h N in all_init d.
Definition store (must_align : bool) (t : table V) (h : Z) (v : list V) : outcome (table V) :=
  guard! (negb must_align || (h mod N =? 0)) in
  let! m := write_cells (t_mem t) h (map Some v) in
  Ok (mkTable m (t_heap t) (t_length t) (t_size t) (t_allocated t) (t_head t)).
Definition with_head (t : table V) (h : Z) : table V :=
  mkTable (t_mem t) (t_heap t) (t_length t) (t_size t) (t_allocated t) h.

(** The first element of a message: bang, float, the symbol "stop", the symbol "clear", any other. *)
Inductive tmsg := MBang | MFloat (f : f32) | MStop | MClear | MOther.

(** h & ~HV_N_SIMD_MASK *)
Definition align_down (h : Z) : Z := Z.land h (Z.lnot (N - 1)).

(** sTabread_onMessage, inlet 0, HvSignalTabread.c:31-68, table not NULL.  Result: the object and the
    numbers sent on outlet 1.  hv_abs_f then (hv_uint32_t), l.42; wrap around the end, l.43-46. *)
Definition sTabread_onMessage0 (t : table V) (r : reader) (m : tmsg) : outcome (reader * list f32) :=
  let e := t_size t in
  match m with
  | MBang => Ok (mkReader 0 e (r_forced r) true, [])
  | MFloat f =>
      let! a := to_u32 (fabs f) in
      let h := if fltb f fzero then u32 (t_size t - a) else a in
      let h' := if r_forced r then align_down h else h in
      Ok (mkReader h' e (r_forced r) true, [of_int h'])
  | MStop => Ok (mkReader 0 e (r_forced r) false, [])
  | _ => Ok (mkReader (r_head r) e (r_forced r) (r_playing r), [])
  end.
(** Inlet 1, l.69-76: the new table, [None] for an unknown name; hTable_getSize(NULL) dereferences NULL. *)
Definition sTabread_onMessage1 (t' : option (table V)) (r : reader) : outcome reader :=
  match t' with
  | Some t => Ok (mkReader 0 (t_size t) (r_forced r) (r_playing r))
  | None => UB
  end.
(** Inlet 2, l.77-90. *)
Definition sTabread_onMessage2 (r : reader) (m : tmsg) : outcome reader :=
  match m with
  | MFloat f => let! e := to_u32 (fabs f) in Ok (mkReader (r_head r) (u32 (r_head r + e)) (r_forced r) (r_playing r))
  | _ => Ok r
  end.

(** __hv_tabread_f, HvSignalTabread.h:80-95 ([must_align]: the SSE/AVX load is the aligned one);
    __hv_tabreadu_f, l.98-113, is the same with [must_align = false]. *)
Definition tabread_f (must_align : bool) (t : table V) (r : reader) : outcome (reader * list V) :=
  assert! u32 (r_head r + N) <=? t_allocated t in
  let! v := load must_align t (r_head r) in
  Ok (mkReader (u32 (r_head r + N)) (r_end r) (r_forced r) (r_playing r), v).

(** __hv_tabread_stoppable_f, l.116-150.  Third component: was a bang sent on outlet 2? *)
Definition tabread_stoppable_f (must_align : bool) (t : table V) (r : reader) : outcome (reader * list V * bool) :=
  let silence := repeat vzero (Z.to_nat N) in
  let playing := r_playing r && negb (t_allocated t <=? r_head r) in
  let stopped := mkReader (r_head r) (r_end r) (r_forced r) false in
  if negb playing then Ok (stopped, silence, false)
  else if r_head r <? r_end r then
    let! v := load must_align t (r_head r) in
    Ok (mkReader (u32 (r_head r + N)) (r_end r) (r_forced r) true, v, false)
  else Ok (stopped, silence, true).

(** __hv_tabread_if, l.41-72: each lane asserted in 0 <= i < allocated, then read. *)
Fixpoint tabread_lanes (t : table V) (is : list Z) : outcome (list V) :=
  match is with
  | [] => Ok []
  | i :: is' => let! v := get t i in let! r := tabread_lanes t is' in Ok (v :: r)
  end.
Definition tabread_if (t : table V) (is : list Z) : outcome (list V) :=
  assert! forallb (fun i => (0 <=? i) && (i <? t_allocated t)) is in tabread_lanes t is.

(** *** Writers *)
Definition STOPPED : Z := 4294967295.   (* HV_TABWRITE_STOPPED, HvSignalTabwrite.h:26 *)
(** sTabwrite_init, HvSignalTabwrite.c:19-23: the head is 0. *)
Definition sTabwrite_init : Z := 0.
(** sTabwrite_onMessage inlet 1, HvSignalTabwrite.c:29-50: new table and head. *)
Definition sTabwrite_onMessage1 (t : table V) (head : Z) (m : tmsg) : outcome (table V * Z) :=
  match m with
  | MBang => Ok (t, 0)
  | MFloat f => if fleb fzero f then let! h := to_u32 f in Ok (t, h) else Ok (t, STOPPED)
  | MStop => Ok (t, STOPPED)
  | MClear =>
      let! c := clear_cells vzero (t_mem t) 0 (t_allocated t) in
      Ok (mkTable c (t_heap t) (t_length t) (t_size t) (t_allocated t) (t_head t), head)
  | MOther => Ok (t, head)
  end.
(** __hv_tabwrite_f, HvSignalTabwrite.h:38-54. *)
Definition tabwrite_f (must_align : bool) (t : table V) (head : Z) (v : list V) : outcome (table V * Z) :=
  assert! u32 (head + N) <=? t_size t in
  let! t1 := store must_align t head v in
  let h := u32 (head + N) in Ok (with_head t1 h, h).
(** __hv_tabwrite_stoppable_f, l.74-90. *)
Definition tabwrite_stoppable_f (t : table V) (head : Z) (v : list V) : outcome (table V * Z) :=
  if head =? STOPPED then Ok (t, head)
  else let! t1 := store false t head v in Ok (t1, u32 (head + N)).
(** __hv_tabwrite_if, l.93-151.  [checked]: SSE/AVX/NEON assert the indices (NEON against the size,
    the others against allocated: [bound]); the plain C version does not.  Lanes are written in order. *)
Fixpoint tabwrite_lanes (t : table V) (ivs : list (Z * V)) : outcome (table V) :=
  match ivs with
  | [] => Ok t
  | (i, v) :: l => let! t1 := put t i v in tabwrite_lanes t1 l
  end.
Definition tabwrite_if (checked : bool) (bound : Z) (t : table V) (ivs : list (Z * V)) : outcome (table V) :=
  assert! negb checked || forallb (fun p => (0 <=? fst p) && (fst p <? bound)) ivs in tabwrite_lanes t ivs.

(** *** Runs over many blocks. *)
Fixpoint write_run (al : bool) (t : table V) (head : Z) (blocks : list (list V)) : outcome (table V * Z) :=
  match blocks with
  | [] => Ok (t, head)
  | b :: bs => let! (t1, h1) := tabwrite_f al t head b in write_run al t1 h1 bs
  end.
Fixpoint read_run (al : bool) (t : table V) (r : reader) (k : nat) : outcome (reader * list (list V)) :=
  match k with
  | O => Ok (r, [])
  | S k' => let! (r1, v) := tabread_f al t r in let! (r2, vs) := read_run al t r1 k' in Ok (r2, v :: vs)
  end.
Fixpoint play_run (al : bool) (t : table V) (r : reader) (k : nat) : outcome (reader * list (list V * bool)) :=
  match k with
  | O => Ok (r, [])
  | S k' => let! (r1, v, b) := tabread_stoppable_f al t r in let! (r2, vs) := play_run al t r1 k' in Ok (r2, (v, b) :: vs)
  end.

(** A history of a stoppable reader in a patch: its messages, its blocks, and anything that happens to
    the tables in between ([Tables]: the tables after the change). *)
Inductive play_op :=
| PMsg (m : tmsg)              (* inlet 0 *)
| PSelect (i : nat)            (* inlet 1: name of table i *)
| PEnd (m : tmsg)              (* inlet 2 *)
| PBlock                       (* one vector block *)
| PTables (ts : list (table V)).
Record player := mkPlayer { p_tables : list (table V); p_cur : nat; p_reader : reader;
                            p_out : list (list V * bool) }.
Definition play_step (al : bool) (p : player) (o : play_op) : outcome player :=
  let dflt := mkTable [] true 0 0 0 0 in
  let t := nth (p_cur p) (p_tables p) dflt in
  match o with
  | PMsg m => let! (r, _) := sTabread_onMessage0 t (p_reader p) m in
              Ok (mkPlayer (p_tables p) (p_cur p) r (p_out p))
  | PSelect i => let! r := sTabread_onMessage1 (nth_error (p_tables p) i) (p_reader p) in
                 Ok (mkPlayer (p_tables p) i r (p_out p))
  | PEnd m => let! r := sTabread_onMessage2 (p_reader p) m in Ok (mkPlayer (p_tables p) (p_cur p) r (p_out p))
  | PBlock => let! (r, v, b) := tabread_stoppable_f al t (p_reader p) in
              Ok (mkPlayer (p_tables p) (p_cur p) r (p_out p ++ [(v, b)]))
  | PTables ts => Ok (mkPlayer ts (p_cur p) (p_reader p) (p_out p))
  end.
Fixpoint play_history (al : bool) (p : player) (l : list play_op) : outcome player :=
  match l with [] => Ok p | o :: l' => let! p1 := play_step al p o in play_history al p1 l' end.
End SigTab.
Arguments player : clear implicits. Arguments play_op : clear implicits.
Arguments mkPlayer {V}. Arguments PMsg {V}. Arguments PSelect {V}. Arguments PEnd {V}. Arguments PBlock {V}. Arguments PTables {V}.
Arguments p_tables {V}. Arguments p_cur {V}. Arguments p_reader {V}. Arguments p_out {V}.
