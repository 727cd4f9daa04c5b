(** C91, C92: delay lines ([delwrite~] / [delread~]). *)
From Verif Require Import TableModel TableSpec TableProofs SigTabModel SigTabSpec SigTabProofs SigTabProps
  DelayLineModel DelayLineSpec BinopSpec BinopProofs DelayLineProofs.
From Coq Require Import ZifyBool Sorted.

Lemma boot_inv (V : Type) (vzero : V) N al len0 len ds0 d0 S x : simd N -> 0 <= len0 -> 4 * (len0 + 2 * N) < 4294967296 ->
  1 <= len -> is_padded N len S -> S < 2 ^ 24 -> is_int ds0 d0 -> 0 <= d0 <= S ->
  exists st, boot vzero N al len0 len ds0 = Ok st /\ inv vzero N S x 0 d0 st /\ filter is_set (d_pend st) = [].
Proof.
  intros HN L0 L1 L2 PS SS F D. pose proof (N_pos N HN) as NP. change (2 ^ 24) with 16777216 in SS.
  assert (HS : N <= S < 2 ^ 24). { split; [|change (2 ^ 24) with 16777216; lia]. destruct PS as ((q & ->) & P). assert (0 < q) by nia. nia. }
  assert (DS : (N | S)) by apply PS.
  unfold boot. destruct (init_owns vzero N HN len0 L0 L1) as (t0 & E0 & O0 & _ & _ & Z0).
  destruct (proj1 (sigtab_tables_sound V vzero N HN) len0 L0 L1) as (t0' & E0' & S0). assert (t0' = t0) by congruence. subst t0'.
  rewrite E0. cbn [obind]. destruct PS as (_ & PR).
  destruct (resize_spec vzero N HN al t0 len O0) as (t & E & O & (P1 & P2) & _ & _ & K1 & K2); [lia|lia|].
  pose proof (proj2 (sigtab_tables_sound V vzero N HN) al t0 len t S0 ltac:(lia) ltac:(lia) E) as St.
  assert (ZS : t_size t = S). { destruct P1 as [q1 P1]. destruct DS as [q2 DS]. assert (q1 = q2) by nia. nia. }
  assert (TH : t_head t = 0).
  { assert (T0 : t_head t0 = 0). { revert E0. unfold hTable_init. destruct (_ && _); [|discriminate]. destruct (clear_cells _ _ _ _); cbn [obind]; try discriminate. intro X. injection X as <-. reflexivity. }
    revert E. unfold hTable_resize. destruct (_ =? _); [intro X; injection X as <-; auto|]. destruct (negb _); [discriminate|].
    match goal with |- obind ?a _ = _ -> _ => destruct a; cbn [obind]; try discriminate end. intro X. injection X as <-. exact T0. }
  rewrite E. cbn [obind]. rewrite (delay_int (of_int N) N) by (try (apply of_int_is_int); lia). cbn [obind].
  rewrite ZS, (delay_int _ S (size_int N HN S HS)) by lia. cbn [obind].
  set (st := sched _ _).
  set (st' := @mkDL V t sTabwrite_init (sTabread_init t0 true) S N S [(S, WLoop); (S, RFirst)]).
  replace (handle vzero N st 0 (RSet ds0)) with (handle vzero N st' 0 (RSet ds0)) by reflexivity.
  assert (I : inv vzero N S x 0 S st').
  { constructor; cbn [st' d_t d_r d_w8 d_w12 d_r15 d_pend d_wh]; auto.
    - repeat constructor. unfold le_ev. cbn. lia.
    - repeat constructor; cbn; lia.
    - exists 1. rewrite !Z.mul_1_l. cbn [filter is_w snd]. split; [auto|]. unfold sTabwrite_init. lia.
    - exists S, RFirst, S. cbn [filter is_r snd sTabread_init r_head]. repeat split; auto; lia.
    - exists S, 1. rewrite !Z.mul_1_l. cbn [sTabread_init r_head]. split; [|lia]. split; auto. lia.
    - exists 0. rewrite TH. lia.
    - intros τ Hτ. assert (B : 0 <= τ mod S < S) by (apply Z.mod_pos_bound; lia). unfold sample. replace (τ <? 0) with true by lia.
      destruct (Z_lt_dec (τ mod S) (t_size t0)) as [L|G]; [rewrite K1 by lia; apply Z0; lia|apply K2; lia]. }
  destruct (set_spec vzero N HN S HS DS x 0 S st' 0 ds0 d0) as (st1 & E1 & I1 & _ & G); auto; try lia. { exists 0. lia. }
  exists st1. split; auto.
Qed.

Lemma input_all (V : Type) (vzero : V) N : forall blocks dss b dmax pre, blocks_ok N b dmax blocks dss -> zlen pre = b -> 0 <= N ->
  is_input_all vzero N (pre ++ concat (map snd blocks)) b blocks.
Proof.
  induction blocks as [|[sets v] bs IH]; intros dss b dmax pre OK ZP NN; cbn [is_input_all]; auto.
  destruct dss as [|ds dss]; [destruct OK|]. destruct OK as (_ & VV & OK). cbn [map concat snd]. split.
  - intros i w Hw. assert (i < length v)%nat by (apply nth_error_Some; congruence). unfold sample, zlen in *.
    replace (b + Z.of_nat i <? 0) with false by lia. rewrite app_nth2 by lia. rewrite app_nth1 by lia.
    replace (Z.to_nat (b + Z.of_nat i) - length pre)%nat with i by lia. symmetry. apply nth_error_nth. auto.
  - specialize (IH dss (b + N) dmax (pre ++ v) OK). rewrite <- app_assoc in IH. apply IH; auto. rewrite zlen_app. unfold vec in VV. lia.
Qed.

(** C91: a delay line delays.  Whatever the length of the line, the input and the sequence of delay
    times sent to [delread~] (whole numbers of samples not above the length of the line), every block
    comes out as the input delayed by the delay in force, rounded up to whole vectors, at least one
    vector; no message or signal step fails, however long it runs.  [read_first]: the order in which
    the compiler put the reader and the writer; if the writer runs first the line must
    hold two vectors and one vector less is available. *)
Theorem delay_line_delays : forall (V : Type) (vzero : V) N aligned read_first al len0 len S ds0 d0 blocks dss,
  simd N -> 0 <= len0 -> 4 * (len0 + 2 * N) < 4294967296 -> 1 <= len -> is_padded N len S -> S < 2 ^ 24 ->
  (read_first = false -> 2 * N <= S) -> let dmax := if read_first then S else S - N in
  is_int ds0 d0 -> 0 <= d0 <= dmax -> blocks_ok N 0 dmax blocks dss ->
  exists st, boot vzero N aligned len0 len ds0 = Ok st /\
  exists k, forall fuel, (k <= fuel)%nat -> exists st1 outs,
    drun vzero N fuel read_first al 0 st blocks = Some (Ok (st1, outs)) /\
    delayed vzero N (concat (map snd blocks)) (delay_at d0 dss) outs.
Proof.
  intros V vz N ali rf al len0 len S ds0 d0 blocks dss HN L0 L1 L2 PS SS WF dmax F D OK. pose proof (N_pos N HN) as NP.
  assert (HS : N <= S < 2 ^ 24). { split; [|lia]. destruct PS as ((q & ->) & P). assert (0 < q) by nia. nia. }
  assert (DM : dmax <= S) by (unfold dmax; destruct rf; lia).
  destruct (boot_inv V vz N ali len0 len ds0 d0 S (concat (map snd blocks))) as (st & E & I & NS); auto; try lia.
  exists st. split; auto.
  assert (RF : rf = false -> Z.max N dmax + N <= S) by (unfold dmax; intros ->; specialize (WF eq_refl); lia).
  destruct (drun_inv vz N HN S HS (proj1 PS) (concat (map snd blocks)) rf al dmax DM RF) with (blocks := blocks) (dss := dss) (b := 0) (d := d0) (st := st) as (k & K); auto; try lia.
  { exists 0. lia. }
  { apply (input_all V vz N blocks dss 0 dmax []); auto. lia. }
  exists k. intros fuel LE. destruct (K fuel LE) as (st1 & outs & E1 & LO & HO). exists st1, outs. split; auto. split.
  - rewrite LO. clear. revert d0. induction dss; intro d0; cbn; auto.
  - intros j d out Q1 Q2. destruct (HO j d out Q1 Q2) as (D' & W & VO & H). exists D'. split; [auto|]. split; [auto|].
    intros i w Hw. rewrite (H i w Hw). reflexivity.
Qed.

(** A run: line of 8 samples, delay 4, then 7 (rounded to 8) sent in the middle of the third block. *)
Example delay_line_example :
  blocks_ok (V:=Z) 4 0 8 [([], [1;2;3;4]); ([], [5;6;7;8]); ([(9, of_int 7)], [9;10;11;12]); ([], [13;14;15;16])] [[]; []; [7]; []] /\
  exists st st1, boot 0 4 true 0 6 (of_int 3) = Ok st /\
  drun 0 4 10 true true 0 st [([], [1;2;3;4]); ([], [5;6;7;8]); ([(9, of_int 7)], [9;10;11;12]); ([], [13;14;15;16])]
   = Some (Ok (st1, [[0;0;0;0]; [1;2;3;4]; [1;2;3;4]; [5;6;7;8]])).
Proof.
  split.
  - cbn [blocks_ok sets_ok]. repeat apply conj; first [exact I | apply of_int_is_int; lia | reflexivity | lia].
  - let s := eval vm_compute in (boot 0 4 true 0 6 (of_int 3)) in match s with Ok ?t => exists t end.
    eexists. split; vm_compute; reflexivity.
Qed.

(** C92, as stated false: every delay line patch works for every delay.
    A delay of 12 samples asked of a line of 8 at the start gives 8 ... *)
Theorem delay_too_long_refuted : exists st st1, boot 0 4 true 0 8 (of_int 12) = Ok st /\
  drun 0 4 10 true true 0 st [([], [1;2;3;4]); ([], [5;6;7;8]); ([], [9;10;11;12]); ([], [13;14;15;16])] =
    Some (Ok (st1, [[0;0;0;0]; [0;0;0;0]; [1;2;3;4]; [5;6;7;8]])).
Proof.
  let s := eval vm_compute in (boot 0 4 true 0 8 (of_int 12)) in match s with Ok ?t => exists t end.
  eexists. split; vm_compute; reflexivity.
Qed.
(** ... and 4 if it is asked again four samples later: it depends on when the message comes. *)
Theorem delay_longer_refuted : exists st st1, boot 0 4 true 0 8 (of_int 12) = Ok st /\
  drun 0 4 10 true true 0 st [([], [1;2;3;4]); ([(4, of_int 12)], [5;6;7;8]); ([], [9;10;11;12]); ([], [13;14;15;16])] =
    Some (Ok (st1, [[0;0;0;0]; [1;2;3;4]; [5;6;7;8]; [9;10;11;12]])).
Proof.
  let s := eval vm_compute in (boot 0 4 true 0 8 (of_int 12)) in match s with Ok ?t => exists t end.
  eexists. split; vm_compute; reflexivity.
Qed.
(** With the writer first the full length of the line is no delay at all. *)
Theorem delay_full_refuted : exists st st1, boot 0 4 true 0 8 (of_int 8) = Ok st /\
  drun 0 4 10 false true 0 st [([], [1;2;3;4]); ([], [5;6;7;8]); ([], [9;10;11;12])] =
    Some (Ok (st1, [[1;2;3;4]; [5;6;7;8]; [9;10;11;12]])).
Proof.
  let s := eval vm_compute in (boot 0 4 true 0 8 (of_int 8)) in match s with Ok ?t => exists t end.
  eexists. split; vm_compute; reflexivity.
Qed.
(** A fractional delay (4.5 samples) is 4 or 8 samples long depending on when it is sent: 4 at the
    start, 8 when sent for the third block, although nothing else changed. *)
Theorem delay_fraction_refuted : exists st st1, let f := fdyadic 9 (-1) in boot 0 4 true 0 12 f = Ok st /\
  drun 0 4 10 true true 0 st [([], [1;2;3;4]); ([], [5;6;7;8]); ([(8, f)], [9;10;11;12]); ([], [13;14;15;16])] =
    Some (Ok (st1, [[0;0;0;0]; [1;2;3;4]; [1;2;3;4]; [5;6;7;8]])).
Proof.
  let s := eval vm_compute in (boot 0 4 true 0 12 (fdyadic 9 (-1))) in match s with Ok ?t => exists t end.
  eexists. cbv zeta. split; vm_compute; reflexivity.
Qed.
(** A line of length zero hangs the render call: the messages due never end. *)
Definition spins (N : Z) (st : @dline Z) : Prop :=
  d_w8 st = 0 /\ d_r15 st = 0 /\ d_w12 st = N /\ StronglySorted le_ev (d_pend st) /\
  Forall (fun e => 0 <= fst e) (d_pend st) /\
  In (0, WLoop) (d_pend st) /\ Forall (fun e => snd e = WMirror -> N <= fst e) (d_pend st) /\
  filter is_set (d_pend st) = [].
Lemma insert_in e l : In e (insert_ev e l).
Proof. induction l as [|x l IH]; cbn; auto. destruct (_ <? _); cbn; auto. Qed.
Lemma insert_keeps e y l : In y l -> In y (insert_ev e l).
Proof. induction l as [|x l IH]; cbn; auto. intros [->|H]; destruct (_ <? _); cbn; auto. Qed.
Lemma spin N fuel : forall st, 0 < N -> spins N st -> drain 0 N fuel (0 + N) st = None.
Proof.
  induction fuel as [|fuel IH]; intros st NP (W8 & R15 & W12 & SO & PO & IN & MI & NS);
  destruct st as [t wh r w8 w12 r15 pend]; cbn [d_w8 d_r15 d_w12 d_pend] in *; subst w8 r15 w12;
  (destruct pend as [|[ts e] l]; [destruct IN|]);
  (assert (TS : ts = 0);
   [inversion SO as [|? ? S1 F1]; subst; inversion PO; subst; cbn in *; destruct IN as [E|IN]; [congruence|];
    rewrite Forall_forall in F1; specialize (F1 _ IN); unfold le_ev in F1; cbn in F1; lia|]); subst ts; cbn [drain d_pend];
  replace (0 <? 0 + N) with true by lia; [reflexivity|].
  inversion SO as [|? ? S1 F1]; subst. inversion PO as [|? ? P0 P1]; subst. inversion MI as [|? ? M0 M1]; subst. cbn [fst snd] in *.
  destruct e as [| | | |f]; cbn [filter is_set snd] in NS; [| | | |discriminate].
  - cbn [handle sched with_pend d_t d_wh d_r d_w8 d_w12 d_r15 d_pend sTabwrite_onMessage1 obind with_wh with_t]. apply IH; auto.
    repeat split; cbn [d_w8 d_r15 d_w12 d_pend]; auto.
    + apply insert_sorted, insert_sorted; auto.
    + apply insert_forall; [cbn; lia|]. apply insert_forall; [cbn; lia|auto].
    + apply insert_in.
    + apply insert_forall; [discriminate|]. apply insert_forall; [cbn; lia|auto].
    + unfold with_wh, with_t, with_r, sched, with_pend; cbn [d_pend]. rewrite !filter_insert_out by reflexivity. auto.
  - specialize (M0 eq_refl). lia.
  - destruct IN as [X|IN]; [discriminate|].
    cbn [handle sched with_pend d_t d_wh d_r d_w8 d_w12 d_r15 d_pend sTabread_onMessage0 obind with_r]. apply IH; auto.
    repeat split; cbn [d_w8 d_r15 d_w12 d_pend]; auto.
    + apply insert_sorted; auto. + apply insert_forall; [cbn; lia|auto]. + apply insert_keeps; auto.
    + apply insert_forall; [discriminate|auto]. + unfold with_wh, with_t, with_r, sched, with_pend; cbn [d_pend]. rewrite !filter_insert_out by reflexivity. auto.
  - destruct IN as [X|IN]; [discriminate|].
    cbn [handle sched with_pend d_t d_wh d_r d_w8 d_w12 d_r15 d_pend sTabread_onMessage0 obind with_r]. apply IH; auto.
    repeat split; cbn [d_w8 d_r15 d_w12 d_pend]; auto.
    + apply insert_sorted; auto. + apply insert_forall; [cbn; lia|auto]. + apply insert_keeps; auto.
    + apply insert_forall; [discriminate|auto]. + unfold with_wh, with_t, with_r, sched, with_pend; cbn [d_pend]. rewrite !filter_insert_out by reflexivity. auto.
Qed.
Theorem delay_zero_length_refuted : exists st, boot 0 4 true 0 0 (of_int 0) = Ok st /\
  forall fuel read_first v, dblock 0 4 fuel read_first true 0 st [] v = None.
Proof.
  let s := eval vm_compute in (boot 0 4 true 0 0 (of_int 0)) in match s with Ok ?t => exists t end.
  split; [vm_compute; reflexivity|]. intros fuel rf v. unfold dblock. cbn [fold_left]. rewrite spin; auto; [lia|].
  repeat split; cbn; auto; repeat constructor; unfold le_ev; cbn; try lia; discriminate.
Qed.

Print Assumptions delay_line_delays.
Print Assumptions delay_too_long_refuted.
Print Assumptions delay_longer_refuted.
Print Assumptions delay_full_refuted.
Print Assumptions delay_fraction_refuted.
Print Assumptions delay_zero_length_refuted.
