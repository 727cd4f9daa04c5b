(** Vocabulary of the table properties. *)
From Verif Require Import TableModel.

Section S.
Context {V : Type}.
Variable N : Z.
(** HV_N_SIMD *)
Definition simd : Prop := N = 1 \/ N = 4 \/ N = 8.
(** The least multiple of N not below n. *)
Definition is_padded (n s : Z) : Prop := (N | s) /\ n <= s < n + N.
(** What the comment in HvTable.h:32-39 promises: the block holds the usable values plus N more,
    all of it is initialised, and was obtained from malloc. *)
Record owns (t : table V) : Prop := {
  own_heap : t_heap t = true;
  own_size : 0 <= t_size t;
  own_block : t_size t + N <= zlen (t_mem t);
  own_alloc : t_size t + N <= t_allocated t <= zlen (t_mem t);
  own_init : forall x, 0 <= x < zlen (t_mem t) -> exists v, get t x = Ok v;
  own_32bit : 4 * zlen (t_mem t) < 4294967296 }.
End S.

Section W.
Context {V : Type}.
Variable N : Z.
Variable ceil_int : f32 -> outcome Z.
(** [k] tables exist; resizes stay below 2^30 floats (32 bit byte counts). *)
Definition op_ok (k : nat) (o : table_op V) : Prop :=
  match o with
  | ReaderTable (Some i) | WriterTable (Some i) | Mirror i => (i < k)%nat
  | Resize i f _ => (i < k)%nat /\ exists n, ceil_int f = Ok n /\ 0 <= n /\ 4 * (n + 2 * N) < 4294967296
  | _ => True
  end.
Definition pins_table (o : table_op V) : bool :=
  match o with Resize _ _ _ | WriterTable _ => false | _ => true end.
(** A patch just started: tables from the constructor, both objects bound to some table or none. *)
Record starts (w : world V) : Prop := {
  st_tables : forall t, In t (w_tables w) -> owns N t;
  st_rd : forall i, w_rd w = Some i -> (i < length (w_tables w))%nat;
  st_wr : forall i, w_wr w = Some i -> (i < length (w_tables w))%nat;
  st_x : w_x w = 0 }.
End W.
