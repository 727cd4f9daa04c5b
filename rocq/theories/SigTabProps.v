(** C85-C90: signal objects that read and write tables. *)
From Verif Require Import TableModel TableSpec TableProofs SigTabModel SigTabSpec SigTabProofs.
From Coq Require Import ZifyBool.

(** Tables made by the constructor, resized or written are sound. *)
Theorem sigtab_tables_sound : forall (V : Type) (vzero : V) N, simd N ->
  (forall len, 0 <= len -> 4 * (len + 2 * N) < 4294967296 -> exists t, hTable_init vzero N len = Ok t /\ sound N t) /\
  (forall al t n t', sound N t -> 0 <= n -> 4 * (n + 2 * N) < 4294967296 -> hTable_resize vzero N al t n = Ok t' -> sound N t').
Proof.
  intros V vz N HN. pose proof (N_pos N HN) as NP. split.
  - intros len H0 H1. destruct (init_owns vz N HN len H0 H1) as (t & E & O & _ & (D & _) & _). exists t. split; auto. split; auto. split; auto.
    revert E. unfold hTable_init. destruct (_ && _); [|discriminate]. destruct (clear_cells _ _ _ _); cbn [obind]; try discriminate.
    intro E. injection E as <-. cbn [t_allocated t_size]. pose proof (own_block _ _ O) as OB. pose proof (own_32bit _ _ O) as OC.
    pose proof (own_size _ _ O) as OS. cbn [t_size t_mem] in *. rewrite u32_id; lia.
  - intros al t n t' S0 H0 H1 E. destruct (resize_spec vz N HN al t n) as (t2 & E2 & O & (D & _) & SM & _); auto. { apply S0. }
    assert (t2 = t') by congruence. subst t2. destruct (Z.eq_dec (t_size t') (t_size t)) as [Q|Q]; [rewrite (SM Q); auto|].
    split; auto. split; auto. revert E. unfold hTable_resize.
    destruct (Z.eqb_spec (pad N n) (t_size t)) as [X|X]. { intro E. injection E as <-. congruence. }
    destruct (t_heap t); cbn [negb]; [|discriminate].
    match goal with |- obind ?a _ = _ -> _ => destruct a; cbn [obind]; try discriminate end.
    intro E. injection E as <-. cbn [t_allocated t_size]. pose proof (own_block _ _ O) as OB. pose proof (own_32bit _ _ O) as OC.
    pose proof (own_size _ _ O) as OS. cbn [t_size t_mem] in *. rewrite u32_id; lia.
Qed.

(** C85: a stretch of signal written with the linear writer is read back sample for sample, and the
    rest of the table is left alone. *)
Theorem sigtab_record_play : forall (V : Type) N al (t : table V) h blocks, simd N -> sound N t ->
  0 <= h -> (N | h) -> Forall (vec N) blocks -> h + N * zlen blocks <= t_size t ->
  exists t', write_run N al t h blocks = Ok (t', h + N * zlen blocks) /\ sound N t' /\ t_size t' = t_size t /\
    (blocks <> [] -> t_head t' = h + N * zlen blocks) /\
    (forall x, 0 <= x < t_size t -> ~ (h <= x < h + N * zlen blocks) -> get t' x = get t x) /\
    (forall r, r_head r = h ->
       exists r', read_run N al t' r (length blocks) = Ok (r', blocks) /\ r_head r' = h + N * zlen blocks).
Proof.
  intros V N al t h bs HN S0 H0 D F H1. pose proof (N_pos N HN) as NP. pose proof (sound_bound N t S0).
  destruct (write_run_spec N HN al bs t h) as (t' & E & S1 & Z1 & TH & L & Hd & G); auto.
  exists t'. split; [auto|]. split; [auto|]. split; [auto|]. split; [auto|]. split.
  - intros x Hx NX. apply G; auto. lia.
  - intros r R. subst h. apply (read_run_spec N HN); auto. destruct S1 as (_ & _ & ->). lia.
Qed.
Example sigtab_record_play_example : exists t, hTable_init 0 4 8 = Ok t /\ sound 4 t /\
  match write_run 4 true t 0 [[1;2;3;4];[5;6;7;8]] with
  | Ok (t', h) => h = 8 /\
     match read_run 4 true t' (sTabread_init t' true) 2 with Ok (_, l) => l = [[1;2;3;4];[5;6;7;8]] | _ => False end
  | _ => False
  end.
Proof.
  destruct (proj1 (sigtab_tables_sound Z 0 4 (or_intror (or_introl eq_refl))) 8) as (t & E & S0); [lia|lia|].
  exists t. split; [auto|]. split; [auto|]. vm_compute in E. injection E as <-. vm_compute. auto.
Qed.

(** C86: the linear reader and writer check their range: they stop the program by the assertion exactly
    when the block does not fit, and touch nothing else (for heads below 2^32 - N). *)
Theorem sigtab_linear_checked : forall (V : Type) N al (t : table V), simd N -> sound N t ->
  (forall r, 0 <= r_head r < 4294967296 - N -> (al = true -> (N | r_head r)) ->
     (t_allocated t < r_head r + N -> tabread_f N al t r = AssertFail) /\
     (r_head r + N <= t_allocated t ->
        exists r' v, tabread_f N al t r = Ok (r', v) /\ r_head r' = r_head r + N /\ vec N v /\ holds t (r_head r) v)) /\
  (forall h v, 0 <= h < 4294967296 - N -> (al = true -> (N | h)) -> vec N v ->
     (t_size t < h + N -> tabwrite_f N al t h v = AssertFail) /\
     (h + N <= t_size t ->
        exists t', tabwrite_f N al t h v = Ok (t', h + N) /\ sound N t' /\ holds t' h v /\ t_head t' = h + N /\
          (forall x, 0 <= x < t_allocated t -> ~ (h <= x < h + N) -> get t' x = get t x))).
Proof.
  intros V N al t HN S0. pose proof (N_pos N HN) as NP. pose proof (sound_bound N t S0) as B. split.
  - intros r H0 A. split.
    + intro L. unfold tabread_f. rewrite u32_id by lia. replace (r_head r + N <=? t_allocated t) with false by lia. reflexivity.
    + intro L. destruct (tabread_ok N HN al t r) as (v & -> & L2 & Hv); auto; [lia|]. do 2 eexists. split; [reflexivity|]. auto.
  - intros h v H0 A VV. split.
    + intro L. unfold tabwrite_f. rewrite u32_id by lia. replace (h + N <=? t_size t) with false by lia. reflexivity.
    + intro L. destruct (tabwrite_ok N HN al t h v) as (t' & -> & S1 & _ & TH & ZL & Hv & G); auto; [lia|].
      exists t'. split; [auto|]. split; [auto|]. split; [auto|]. split; [auto|]. intros x Hx. apply G.
      destruct S0 as (O & _ & AL). pose proof (own_alloc _ _ O). lia.
Qed.

(** C87: the stoppable reader ([tabplay~]) never leaves the table, whatever messages it gets and
    whatever happens to the tables meanwhile; every block is a vector. *)
Theorem sigtab_stoppable_in_bounds : forall (V : Type) (vzero : V) N al ts cur ops, simd N ->
  Forall (sound N) ts -> (cur < length ts)%nat -> Forall (play_ok N (length ts)) ops ->
  exists p, play_history vzero N al (mkPlayer ts cur (sTabread_init (nth cur ts (mkTable [] true 0 0 0 0)) true) []) ops = Ok p /\
    Forall (fun o => vec N (fst o)) (p_out p).
Proof.
  intros V vz N al ts cur ops HN T C F. destruct (play_history_ok vz N HN al ops (mkPlayer ts cur (sTabread_init (nth cur ts (mkTable [] true 0 0 0 0)) true) []) (length ts)) as (p & E & I); auto.
  - repeat (split; cbn; auto); try lia. exists 0. lia.
  - exists p. split; auto. apply I.
Qed.
Example sigtab_stoppable_example : exists t, hTable_init 0 4 6 = Ok t /\ sound 4 t /\
  Forall (play_ok (V:=Z) 4 1) [PMsg MBang; PBlock; PEnd (MFloat (of_int 100)); PBlock; PBlock; PBlock; PMsg (MFloat (of_int (-3))); PBlock] /\
  exists p, play_history 0 4 true (mkPlayer [t] O (sTabread_init t true) [])
     [PMsg MBang; PBlock; PEnd (MFloat (of_int 100)); PBlock; PBlock; PBlock; PMsg (MFloat (of_int (-3))); PBlock] = Ok p /\
     map snd (p_out p) = [false; false; false; false; false] /\ r_head (p_reader p) = 8.
Proof.
  destruct (proj1 (sigtab_tables_sound Z 0 4 (or_intror (or_introl eq_refl))) 6) as (t & E & S0); [lia|lia|].
  exists t. split; [auto|]. split; [auto|]. split.
  - repeat constructor; cbn; eexists; vm_compute; reflexivity.
  - vm_compute in E. injection E as <-. vm_compute. eexists. split; [reflexivity|]. auto.
Qed.

(** C88: a position message (or a bang, position 0) plays the table from the vector containing the
    position to the end of the table, then one bang, then silence; the start is reported. *)
Theorem sigtab_plays_once : forall (V : Type) (vzero : V) N al (t : table V) r m x start, simd N -> sound N t ->
  r_forced r = true ->
  (m = MBang /\ x = 0 \/ exists f a, m = MFloat f /\ asks t f a x) -> 0 <= x <= t_size t -> block_of N x start ->
  exists r1 sent samples, sTabread_onMessage0 N t r m = Ok (r1, sent) /\
    (m <> MBang -> sent = [of_int start]) /\
    zlen samples * N = t_size t - start /\ Forall (vec N) samples /\ holds t start (concat samples) /\
    forall extra, exists r2, play_run vzero N al t r1 (length samples + S extra) =
      Ok (r2, map (fun b => (b, false)) samples ++ (silence vzero N, true) :: repeat (silence vzero N, false) extra).
Proof.
  intros V vz N al t r m x start HN S0 FA M HX (D & BX). pose proof (N_pos N HN) as NP. pose proof (sound_bound N t S0) as B.
  assert (ST : 0 <= start). { destruct D as [q ->]. assert (-1 < q) by nia. nia. }
  destruct S0 as (O & DS & AL) eqn:ES. clear ES. pose proof (own_alloc _ _ O) as OA.
  assert (SS : start <= t_size t) by lia.
  destruct (cells_exist N HN t start (Z.to_nat ((t_size t - start) / N))) as (bs & LB & FB & HB); auto.
  { rewrite Z2Nat.id by (apply Z.div_pos; lia). pose proof (Z.mul_div_le (t_size t - start) N). lia. }
  assert (DD : (N | t_size t - start)) by (apply Z.divide_sub_r; auto).
  assert (ZB : zlen bs * N = t_size t - start).
  { unfold zlen. rewrite LB, Z2Nat.id by (apply Z.div_pos; lia). destruct DD as [q ->]. rewrite Z.div_mul by lia. lia. }
  exists (mkReader start (t_size t) true true).
  assert (UQ : forall p, block_of N x p -> p = start).
  { intros p ((q1 & ->) & P2). destruct D as [q2 ->]. assert (q1 = q2) by nia. lia. }
  assert (PL : forall extra, exists r2, play_run vz N al t (mkReader start (t_size t) true true) (length bs + S extra) =
      Ok (r2, map (fun b => (b, false)) bs ++ (silence vz N, true) :: repeat (silence vz N, false) extra)).
  { intro extra. apply (play_run_spec vz N HN al bs t (mkReader start (t_size t) true true) (S extra)); cbn [r_head r_end r_playing]; auto; try lia. }
  destruct M as [[-> ->]|(f & a & -> & AS & CS)]; cbn [sTabread_onMessage0].
  - exists [], bs. split. { rewrite FA. f_equal. f_equal. f_equal. apply UQ. split; [exists 0|]; lia. }
    split; [congruence|]. repeat (split; [solve [auto]|]). exact PL.
  - rewrite AS. cbn [obind]. rewrite FA.
    assert (E : (if fltb f fzero then u32 (t_size t - a) else a) = x).
    { destruct CS as [[-> ->]|[-> ->]]; auto. apply u32_id. lia. }
    rewrite E. destruct (align_spec N HN x) as [A1 A2]; [lia|]. rewrite (UQ (align_down N x)) by (split; auto).
    exists [of_int start], bs. split; [reflexivity|]. split; [auto|]. repeat (split; [solve [auto]|]). exact PL.
Qed.
Example sigtab_plays_once_example : exists t, hTable_init 0 4 8 = Ok t /\ sound 4 t /\
  asks t (of_int (-3)) 3 5 /\ block_of 4 5 4.
Proof.
  destruct (proj1 (sigtab_tables_sound Z 0 4 (or_intror (or_introl eq_refl))) 8) as (t & E & S0); [lia|lia|].
  exists t. split; [auto|]. split; [auto|]. split.
  - vm_compute in E. injection E as <-. split; [vm_compute; reflexivity|]. right. split; vm_compute; reflexivity.
  - split; [exists 1; lia|lia].
Qed.

(** C89: random access.  The signal reader answers every lane with its cell; the writer writes every
    lane, the last one winning when indices coincide, and changes nothing else.  In all builds for
    indices inside the table; outside of it the program stops, except for writes in the plain C build. *)
Theorem sigtab_random_access : forall (V : Type) N (t : table V), simd N -> sound N t ->
  (forall is, Forall (fun i => 0 <= i < t_allocated t) is ->
     exists vs, tabread_if t is = Ok vs /\ Forall2 (fun i v => get t i = Ok v) is vs) /\
  (forall is, ~ Forall (fun i => 0 <= i < t_allocated t) is -> tabread_if t is = AssertFail) /\
  (forall checked bound ivs, bound <= t_allocated t -> Forall (fun p => 0 <= fst p < bound) ivs ->
     exists t', tabwrite_if checked bound t ivs = Ok t' /\ sound N t' /\
       (forall x, 0 <= x < t_allocated t -> ~ In x (map fst ivs) -> get t' x = get t x) /\
       (forall before i v after, ivs = before ++ (i, v) :: after -> ~ In i (map fst after) -> get t' i = Ok v)) /\
  (forall bound ivs, ~ Forall (fun p => 0 <= fst p < bound) ivs -> tabwrite_if true bound t ivs = AssertFail).
Proof.
  intros V N t HN S0. destruct S0 as (O & D & AL). pose proof (own_alloc _ _ O) as OA.
  assert (FB : forall is, forallb (fun i => (0 <=? i) && (i <? t_allocated t)) is = true <-> Forall (fun i => 0 <= i < t_allocated t) is).
  { intro is. rewrite forallb_forall, Forall_forall. split; intros H i I; specialize (H i I); lia. }
  assert (FC : forall b (ivs : list (Z * V)), forallb (fun p => (0 <=? fst p) && (fst p <? b)) ivs = true <-> Forall (fun p => 0 <= fst p < b) ivs).
  { intros b ivs. rewrite forallb_forall, Forall_forall. split; intros H i I; specialize (H i I); lia. }
  split; [|split; [|split]].
  - intros is F. unfold tabread_if. rewrite (proj2 (FB is) F). apply lanes_spec. rewrite Forall_forall in F. intros i I. apply (own_init _ _ O). specialize (F i I). lia.
  - intros is F. unfold tabread_if. destruct (forallb _ is) eqn:E; auto. exfalso. apply F, FB, E.
  - intros ch b ivs Hb F. unfold tabwrite_if. rewrite (proj2 (FC b ivs) F), orb_true_r.
    destruct (write_lanes_spec N ivs t O) as (t' & E & O' & S1 & L & G1 & G2).
    { revert F. apply Forall_impl. intros p. lia. }
    exists t'. split; [auto|]. split.
    { split; auto. split; [rewrite S1; auto|]. revert E. clear - AL. revert t AL. induction ivs as [|[i v] l IH]; intros t AL; cbn [tabwrite_lanes].
      - intro E. injection E as <-. auto.
      - unfold put. destruct (write_cells _ _ _); cbn [obind]; try discriminate. apply IH. exact AL. }
    split; [|exact G2]. intros x Hx. apply G1. lia.
  - intros b ivs F. unfold tabwrite_if. destruct (forallb _ ivs) eqn:E; cbn [negb orb]; auto. exfalso. apply F, (FC b ivs), E.
Qed.
Example sigtab_random_example : exists t, hTable_init 0 4 4 = Ok t /\ sound 4 t /\
  match tabwrite_if true 8 t [(2, 5); (2, 6); (7, 1); (0, 9)] with
  | Ok t' => tabread_if t' [0; 1; 2; 7] = Ok [9; 0; 6; 1] | _ => False end.
Proof.
  destruct (proj1 (sigtab_tables_sound Z 0 4 (or_intror (or_introl eq_refl))) 4) as (t & E & S0); [lia|lia|].
  exists t. split; [auto|]. split; [auto|]. vm_compute in E. injection E as <-. vm_compute. reflexivity.
Qed.

(** C90, as stated false: what the code does at and beyond the ends.
    A start position exactly one vector before the table makes the 32 bit sum in the assertion wrap:
    the load reads far outside the table. *)
Theorem sigtab_reader_wrap_refuted : exists t r, hTable_init 0 4 8 = Ok t /\ sound 4 t /\
  sTabread_onMessage0 4 t (sTabread_init t true) (MFloat (of_int (-12))) = Ok (r, [of_int 4294967292]) /\
  tabread_f 4 true t r = UB.
Proof.
  destruct (proj1 (sigtab_tables_sound Z 0 4 (or_intror (or_introl eq_refl))) 8) as (t & E & S0); [lia|lia|].
  exists t, (mkReader 4294967292 8 true true). split; [auto|]. split; [auto|]. vm_compute in E. injection E as <-.
  split; [|vm_compute; reflexivity]. unfold sTabread_onMessage0.
  replace (to_u32 (fabs (of_int (-12)))) with (Ok 12) by (vm_compute; reflexivity). cbn [obind].
  replace (fltb (of_int (-12)) fzero) with true by (vm_compute; reflexivity).
  cbn [t_size r_forced sTabread_init].
  replace (align_down 4 (u32 (8 - 12))) with 4294967292 by (vm_compute; reflexivity). reflexivity.
Qed.
(** "stop" sent to the linear writer: the stop mark passes the wrapped assertion (plain C build). *)
Theorem sigtab_writer_stop_refuted : exists t, hTable_init 0 1 8 = Ok t /\ sound 1 t /\
  sTabwrite_onMessage1 0 t 0 MStop = Ok (t, STOPPED) /\ tabwrite_f 1 false t STOPPED [7] = UB.
Proof.
  destruct (proj1 (sigtab_tables_sound Z 0 1 (or_introl eq_refl)) 8) as (t & E & S0); [lia|lia|].
  exists t. split; [auto|]. split; [auto|]. vm_compute in E. injection E as <-. split; vm_compute; reflexivity.
Qed.
(** The stoppable writer does not stop: started at 0 it writes past the end of the memory. *)
Theorem sigtab_stoppable_write_refuted : exists t t1 t2, hTable_init 0 4 4 = Ok t /\ sound 4 t /\
  tabwrite_stoppable_f 4 t sTabwrite_init [1;1;1;1] = Ok (t1, 4) /\
  tabwrite_stoppable_f 4 t1 4 [2;2;2;2] = Ok (t2, 8) /\
  tabwrite_stoppable_f 4 t2 8 [3;3;3;3] = UB.
Proof.
  destruct (proj1 (sigtab_tables_sound Z 0 4 (or_intror (or_introl eq_refl))) 4) as (t & E & S0); [lia|lia|].
  vm_compute in E. injection E as E. 
  exists t. do 2 eexists. split; [rewrite <- E; vm_compute; reflexivity|]. split; [auto|]. subst t.
  split; [vm_compute; reflexivity|]. split; vm_compute; reflexivity.
Qed.
(** An unknown table name is a null pointer dereference. *)
Theorem sigtab_unknown_table_refuted : forall V r, sTabread_onMessage1 (V:=V) None r = UB.
Proof. reflexivity. Qed.
(** The end given on the right inlet is rounded up to a whole vector: one sample asked, four played. *)
Theorem sigtab_end_refuted : exists t r1 r2 r3, hTable_init 0 4 8 = Ok t /\
  tabwrite_f 4 true t 0 [1;2;3;4] = Ok (r1, 4) /\
  sTabread_onMessage0 4 r1 (sTabread_init r1 true) MBang = Ok (r2, []) /\
  sTabread_onMessage2 r2 (MFloat (of_int 1)) = Ok r3 /\
  exists r4, play_run 0 4 true r1 r3 2 = Ok (r4, [([1;2;3;4], false); ([0;0;0;0], true)]).
Proof.
  let x := eval vm_compute in (hTable_init 0 4 8) in match x with Ok ?t => exists t end.
  do 3 eexists. split; [vm_compute; reflexivity|]. split; [vm_compute; reflexivity|]. split; [vm_compute; reflexivity|].
  split; [vm_compute; reflexivity|]. eexists. vm_compute. reflexivity.
Qed.
(** An end beyond the table: the reader stops at the end of the memory, after playing the extra
    vector, and never sends the bang. *)
Theorem sigtab_no_bang_refuted : exists t r2 r3, hTable_init 0 4 4 = Ok t /\
  sTabread_onMessage0 4 t (sTabread_init t true) MBang = Ok (r2, []) /\
  sTabread_onMessage2 r2 (MFloat (of_int 100)) = Ok r3 /\
  forall k, exists r4 out, play_run 0 4 true t r3 k = Ok (r4, out) /\ Forall (fun o => snd o = false) out.
Proof.
  let x := eval vm_compute in (hTable_init 0 4 4) in match x with Ok ?t => exists t end.
  do 2 eexists. split; [vm_compute; reflexivity|]. split; [vm_compute; reflexivity|]. split; [vm_compute; reflexivity|].
  intros [|[|k]].
  - do 2 eexists. split; [reflexivity|]. constructor.
  - do 2 eexists. split; [vm_compute; reflexivity|]. repeat constructor.
  - cbn [play_run].
    let x := eval vm_compute in (tabread_stoppable_f 0 4 true (mkTable [Some 0; Some 0; Some 0; Some 0; Some 0; Some 0; Some 0; Some 0] true 4 4 8 0) (mkReader 0 100 true true)) in
      replace (tabread_stoppable_f 0 4 true (mkTable [Some 0; Some 0; Some 0; Some 0; Some 0; Some 0; Some 0; Some 0] true 4 4 8 0) _) with x by (vm_compute; reflexivity).
    cbn [obind].
    let x := eval vm_compute in (tabread_stoppable_f 0 4 true (mkTable [Some 0; Some 0; Some 0; Some 0; Some 0; Some 0; Some 0; Some 0] true 4 4 8 0) (mkReader 4 100 true true)) in
      replace (tabread_stoppable_f 0 4 true (mkTable [Some 0; Some 0; Some 0; Some 0; Some 0; Some 0; Some 0; Some 0] true 4 4 8 0) _) with x by (vm_compute; reflexivity).
    cbn [obind].
    assert (IDLE : forall n, exists r out, play_run 0 4 true (mkTable [Some 0; Some 0; Some 0; Some 0; Some 0; Some 0; Some 0; Some 0] true 4 4 8 0) (mkReader 8 100 true true) n = Ok (r, out) /\ Forall (fun o => snd o = false) out).
    { intros [|n]; [do 2 eexists; split; [reflexivity|constructor]|]. cbn [play_run].
      let x := eval vm_compute in (tabread_stoppable_f 0 4 true (mkTable [Some 0; Some 0; Some 0; Some 0; Some 0; Some 0; Some 0; Some 0] true 4 4 8 0) (mkReader 8 100 true true)) in
        replace (tabread_stoppable_f 0 4 true (mkTable [Some 0; Some 0; Some 0; Some 0; Some 0; Some 0; Some 0; Some 0] true 4 4 8 0) _) with x by (vm_compute; reflexivity).
      cbn [obind]. destruct (idle_run 0 4 true n (mkTable [Some 0; Some 0; Some 0; Some 0; Some 0; Some 0; Some 0; Some 0] true 4 4 8 0) (mkReader 8 100 true false)) as (r & -> & _); auto.
      cbn [obind]. do 2 eexists. split; [reflexivity|]. constructor; auto. apply Forall_forall. intros o I. apply repeat_spec in I. subst. reflexivity. }
    destruct (IDLE k) as (r & out & E & F). rewrite E. cbn [obind]. do 2 eexists. split; [reflexivity|]. repeat (constructor; auto).
Qed.

Print Assumptions sigtab_tables_sound.
Print Assumptions sigtab_record_play.
Print Assumptions sigtab_linear_checked.
Print Assumptions sigtab_stoppable_in_bounds.
Print Assumptions sigtab_plays_once.
Print Assumptions sigtab_random_access.
Print Assumptions sigtab_reader_wrap_refuted.
Print Assumptions sigtab_writer_stop_refuted.
Print Assumptions sigtab_stoppable_write_refuted.
Print Assumptions sigtab_unknown_table_refuted.
Print Assumptions sigtab_end_refuted.
Print Assumptions sigtab_no_bang_refuted.
