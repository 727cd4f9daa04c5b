(** C22, C23, C24: tables. *)
From Verif Require Import TableModel TableSpec TableProofs TableProofs2.

(** C22.  For every vector width: the usable size becomes the padded new length, the usable samples
    common to both sizes are unchanged, all samples beyond the old usable size are zero, and the
    recorded length is the requested one unless the padded size did not change. *)
Theorem table_resize_usable : forall (V : Type) (vzero : V) N aligned t n,
  simd N -> owns N t -> 0 <= n -> 4 * (n + 2 * N) < 4294967296 ->
  exists t', hTable_resize vzero N aligned t n = Ok t' /\ owns N t' /\ is_padded N n (t_size t') /\
    (t_size t' <> t_size t -> t_length t' = n) /\
    (forall x, 0 <= x < t_size t -> x < t_size t' -> get t' x = get t x) /\
    (forall x, t_size t <= x < t_size t' -> get t' x = Ok vzero).
Proof.
  intros V vzero N al t n HN O H0 H1.
  destruct (resize_spec vzero N HN al t n O H0 H1) as (t' & A & B & C & D & E & F & G).
  exists t'. tauto.
Qed.
(** C22 in full for the scalar build (N = 1), where size and length coincide. *)
Theorem table_resize_scalar : forall (V : Type) (vzero : V) aligned t n,
  owns 1 t -> t_length t = t_size t -> 0 <= n -> 4 * (n + 2) < 4294967296 ->
  exists t', hTable_resize vzero 1 aligned t n = Ok t' /\ owns 1 t' /\ t_length t' = n /\ t_size t' = n /\
    (forall x, 0 <= x < t_length t -> x < n -> get t' x = get t x) /\
    (forall x, t_length t <= x < n -> get t' x = Ok vzero).
Proof.
  intros V vzero al t n O L H0 H1.
  destruct (resize_spec vzero 1 (or_introl eq_refl) al t n O H0 H1) as (t' & A & B & [C1 C2] & D & E & F & G).
  exists t'. split; [exact A|]. split; [exact B|]. assert (S : t_size t' = n) by lia.
  rewrite S in *. rewrite L. split; [|split; [reflexivity|split; auto]].
  destruct (Z.eq_dec n (t_size t)) as [Q|Q]; [|apply E; exact Q].
  rewrite (D Q), L. symmetry. exact Q.
Qed.
Example resize_hyps : exists t, hTable_init 0 4 5 = Ok t /\ owns 4 t /\ t_size t = 8 /\ t_length t = 5.
Proof.
  destruct (init_owns 0 4 (or_intror (or_introl eq_refl)) 5) as (t & A & B & C & [D1 D2] & _); [lia|lia|].
  exists t. split; [exact A|]. split; [exact B|]. split; [|exact C]. destruct D1 as [k Hk]. lia.
Qed.

(** Refutations of C22 for vector builds. *)
(** Growing within the padding leaves the old length. *)
Theorem table_resize_length_refuted : exists t t', hTable_init 0 4 5 = Ok t /\
  hTable_resize 0 4 true t 6 = Ok t' /\ t_length t' = 5.
Proof. eexists. eexists. split; [vm_compute; reflexivity|]. split; vm_compute; reflexivity. Qed.
(** Shrinking and growing again resurrects an old sample instead of zero. *)
Theorem table_resize_stale_refuted : exists t t1 t2 t3, hTable_init 0 4 5 = Ok t /\
  put t 3 42 = Ok t1 /\ hTable_resize 0 4 true t1 3 = Ok t2 /\ t_length t2 = 3 /\
  hTable_resize 0 4 true t2 5 = Ok t3 /\ t_length t3 = 5 /\ get t3 3 = Ok 42.
Proof.
  do 4 eexists. split; [vm_compute; reflexivity|]. split; [vm_compute; reflexivity|].
  split; [vm_compute; reflexivity|]. split; [reflexivity|]. split; [vm_compute; reflexivity|].
  split; [reflexivity|]. vm_compute. reflexivity.
Qed.
(** From 2^30 floats on the 32 bit byte count wraps: memory is cleared far outside the block (or,
    if realloc's block was misaligned, a table of twelve cells claims 2^30 usable samples). *)
Theorem table_resize_huge_refuted : exists t t', hTable_init 0 4 4 = Ok t /\
  hTable_resize 0 4 true t 1073741831 = UB /\
  hTable_resize 0 4 false t 1073741831 = Ok t' /\ t_size t' = 1073741832 /\ zlen (t_mem t') = 12.
Proof. eexists. eexists. split; [vm_compute; reflexivity|]. split; [vm_compute; reflexivity|]. split; [vm_compute; reflexivity|]. split; vm_compute; reflexivity. Qed.

(** C23: from the zeroing constructor on, whatever resizes and mirror messages follow, the usable
    region plus the N mirror cells lie inside the block, initialised. *)
Inductive owner_op := OResize (aligned : bool) (n : Z) | OMirror.
Definition owner_step {V} (vzero : V) N (t : table V) (o : owner_op) :=
  match o with OResize al n => hTable_resize vzero N al t n | OMirror => hTable_mirror N t end.
Fixpoint owner_run {V} (vzero : V) N (t : table V) (l : list owner_op) : outcome (table V) :=
  match l with [] => Ok t | o :: l' => let! t1 := owner_step vzero N t o in owner_run vzero N t1 l' end.
Theorem table_owns_memory : forall (V : Type) (vzero : V) N len l,
  simd N -> 0 <= len -> 4 * (len + 2 * N) < 4294967296 ->
  (forall al n, In (OResize al n) l -> 0 <= n /\ 4 * (n + 2 * N) < 4294967296) ->
  exists t, (let! t0 := hTable_init vzero N len in owner_run vzero N t0 l) = Ok t /\ owns N t.
Proof.
  intros V vzero N len l HN H0 H1 HL.
  destruct (init_owns vzero N HN len H0 H1) as (t0 & E0 & O & _). rewrite E0. cbn [obind]. clear E0 H0 H1 len.
  revert t0 O HL. induction l as [|o l IH]; intros t0 O HL; [exists t0; auto|].
  cbn [owner_run]. assert (S : exists t1, owner_step vzero N t0 o = Ok t1 /\ owns N t1).
  { destruct o as [al n|]; cbn [owner_step].
    - destruct (HL al n) as [A B]; [left; auto|].
      destruct (resize_spec vzero N HN al t0 n O A B) as (t1 & E & O1 & _). exists t1. auto.
    - destruct (mirror_spec N HN t0 O) as (t1 & E & O1 & _). exists t1. auto. }
  destruct S as (t1 & E & O1). rewrite E. cbn [obind]. apply IH; [exact O1|]. intros al n I. apply (HL al n). right. exact I.
Qed.
(** C23 is false for tables created with contents (every table with saved values): they claim N
    more cells than were allocated, and the mirror message writes past the block; this for all
    three widths. *)
Theorem table_data_overflow_refuted : forall N, simd N ->
  exists t, hTable_initWithData 0 N 8 [1;2;3;4;5;6;7;8] = Ok t /\
    zlen (t_mem t) < t_allocated t /\ hTable_mirror N t = UB.
Proof.
  intros N [ -> | [ -> | -> ]]; eexists; (split; [vm_compute; reflexivity|]); split; vm_compute; reflexivity.
Qed.
(** And for the constructor around static data: resizing reallocs memory malloc never returned. *)
Theorem table_final_data_resize_refuted : forall aligned,
  hTable_resize 0 4 aligned (hTable_initWithFinalData 4 [1;2;3;4]) 8 = UB.
Proof. intros []; vm_compute; reflexivity. Qed.

(** C24, reading: at any point of any history of reads, writes, table switches, resizes (below
    2^30 floats) and mirrors, a read of any float index is defined, and what it yields is the
    sample at that index of the current table. *)
Theorem tabread_in_bounds : forall (V : Type) (vzero : V) N cast ceil_int w ops w',
  simd N -> (forall f, 0 <= cast f < 4294967296) -> starts N w ->
  Forall (op_ok N ceil_int (length (w_tables w))) ops ->
  table_run vzero N cast ceil_int w ops = Ok w' ->
  forall f, exists w'', table_step vzero N cast ceil_int w' (ReadAt f) = Ok w'' /\
    (w_log w'' = w_log w' \/ exists i v, w_rd w' = Some i /\ cast f < t_size (tab w' i) /\
       get (tab w' i) (cast f) = Ok v /\ w_log w'' = w_log w' ++ [v]).
Proof.
  intros V vzero N cast ci w ops w' HN HC S F R f.
  destruct (run_inv vzero N HN cast HC ci ops w w' (starts_inv N w S) F R) as [I _].
  destruct (read_ok vzero N HN cast HC ci w' f I) as (w2 & E & _ & _ & _ & _ & L). exists w2. auto.
Qed.
(** C24, writing, exact boundary: a write is undefined exactly when the stored index lies outside
    the current table's block, and otherwise changes exactly that cell. *)
Theorem tabwrite_boundary : forall (V : Type) (vzero : V) N cast ceil_int w ops w' i v,
  simd N -> (forall f, 0 <= cast f < 4294967296) -> starts N w ->
  Forall (op_ok N ceil_int (length (w_tables w))) ops ->
  table_run vzero N cast ceil_int w ops = Ok w' -> w_wr w' = Some i ->
  (w_x w' < zlen (t_mem (tab w' i)) ->
     exists w'', table_step vzero N cast ceil_int w' (WriteY v) = Ok w'' /\ get (tab w'' i) (w_x w') = Ok v /\
       forall j y, j <> i \/ y <> w_x w' -> 0 <= y < zlen (t_mem (tab w' j)) -> get (tab w'' j) y = get (tab w' j) y) /\
  (zlen (t_mem (tab w' i)) <= w_x w' -> table_step vzero N cast ceil_int w' (WriteY v) = UB).
Proof.
  intros V vzero N cast ci w ops w' i v HN HC S F R Hi.
  destruct (run_inv vzero N HN cast HC ci ops w w' (starts_inv N w S) F R) as [I _].
  apply (write_iff vzero N cast ci w' i v I Hi).
Qed.
(** ... hence writes are safe as long as the writer's table is neither switched nor any table resized. *)
Theorem tabwrite_in_bounds : forall (V : Type) (vzero : V) N cast ceil_int w ops,
  simd N -> (forall f, 0 <= cast f < 4294967296) -> starts N w ->
  Forall (op_ok N ceil_int (length (w_tables w))) ops -> forallb pins_table ops = true ->
  exists w', table_run vzero N cast ceil_int w ops = Ok w'.
Proof.
  intros V vzero N cast ci w ops HN HC S F P.
  apply (pinned_run vzero N HN cast HC ci ops w (starts_inv N w S) (starts_xin N HN w S) F P).
Qed.

(** Witness world: two tables of 100 and 10 samples. *)
Definition z_cast (f : f32) : Z := Z.min 4294967295 (Z.max 0 (Btrunc f)).
Definition world0 : world Z :=
  mkWorld (map (fun n => match hTable_init 0 4 n with Ok t => t | _ => mkTable [] true 0 0 0 0 end) [100; 10])
          (Some 0%nat) (Some 0%nat) 0 [].
Example world0_starts : starts 4 world0 /\ forall f, 0 <= z_cast f < 4294967296.
Proof.
  split; [|intro f; unfold z_cast; lia]. constructor.
  - intros t [ <- |[ <- |[]]].
    + destruct (init_owns 0 4 (or_intror (or_introl eq_refl)) 100) as (t & A & B & _); [lia|lia|]. rewrite A. exact B.
    + destruct (init_owns 0 4 (or_intror (or_introl eq_refl)) 10) as (t & A & B & _); [lia|lia|]. rewrite A. exact B.
  - intros i E. injection E as <-. cbn. lia.
  - intros i E. injection E as <-. cbn. lia.
  - reflexivity.
Qed.
Example tabread_example : exists w, table_run 0 4 z_cast to_int world0
   [WriteX (of_int 7); WriteY 42; ReadAt (of_int 7); ReadAt (of_int 500); ReadAt (of_int (-1)); ReaderTable (Some 1%nat); ReadAt (of_int 7); ReadAt (of_int 12)] = Ok w
   /\ w_log w = [42; 0].
Proof. eexists. split; [vm_compute; reflexivity|reflexivity]. Qed.
(** Writing after a shrink or a switch to a shorter table is out of bounds: the index is stale. *)
Theorem tabwrite_stale_index_refuted :
  Forall (op_ok 4 to_int 2) [@WriteX Z (of_int 90); Resize 0 (of_int 8) true] /\
  table_run 0 4 z_cast to_int world0 [WriteX (of_int 90); Resize 0 (of_int 8) true; WriteY 1] = UB /\
  table_run 0 4 z_cast to_int world0 [WriteX (of_int 90); WriterTable (Some 1%nat); WriteY 1] = UB.
Proof.
  split; [|split; vm_compute; reflexivity].
  constructor; [exact I|]. constructor; [|constructor]. split; [lia|].
  exists 8. split; [vm_compute; reflexivity|]. lia.
Qed.

Print Assumptions table_resize_usable.
Print Assumptions table_resize_scalar.
Print Assumptions table_resize_length_refuted.
Print Assumptions table_resize_stale_refuted.
Print Assumptions table_resize_huge_refuted.
Print Assumptions table_owns_memory.
Print Assumptions table_data_overflow_refuted.
Print Assumptions table_final_data_resize_refuted.
Print Assumptions tabread_in_bounds.
Print Assumptions tabwrite_boundary.
Print Assumptions tabwrite_in_bounds.
Print Assumptions tabwrite_stale_index_refuted.
