(** Properties of recording into tables with [tabwrite~]. *)
From Verif Require Import TableModel TableSpec SigTabModel SigTabSpec RecorderModel RecorderSpec TimeSpec Float64 Float64Facts RecorderProofs2 RecorderProofs3 RecorderProofs4.
From Coq Require Import Reals Lra.
Open Scope Z_scope.

(** Whatever "start" (with any number up to 2^31, NaN included), "stop" and bang messages arrive, at whatever
    times, and whatever the signal is: [tabwrite~] never touches memory outside its table, no assertion
    fails, every block ends. *)
Theorem recorder_in_bounds : forall (V : Type) (vzero : V) N sr r (t : table V) blocks, simd N ->
  whole_rate sr r -> 1 <= r <= 1048576 -> sound N t -> t_size t <= 2097152 -> blocks_ok N blocks ->
  exists st st' t', rboot vzero sr t = Ok st /\ rrun vzero N sr 0 st blocks = Some (Ok st') /\
    w_t st' = Some t' /\ sound N t' /\ t_size t' = t_size t.
Proof.
  intros V vzero N sr r t blocks HN W HR S0 S1 OK. exists (state sr t STOPPED []).
  destruct (run_ok vzero N HN sr r W HR blocks t 0 STOPPED [] (conj S0 S1) I (Forall_nil _) (or_introl eq_refl) OK) as (t1 & h1 & p1 & E & S2 & Sz & _).
  exists (state sr t1 h1 p1), t1. split; [apply boot_ok | ]. split; [exact E | ]. split; [reflexivity | ]. split; [apply S2 | exact Sz].
Qed.
Print Assumptions recorder_in_bounds.

(** "start h" as the last message of a block, at [ts] within the block, no messages after: from that block
    on the input is recorded without a gap from cell [h] on, until fewer than a vector of cells is
    left or fewer than a vector too many is written; nothing else in the table changes, and afterwards the
    recorder is stopped.  [before] is any history whose messages came in time. *)
Theorem recorder_records : forall (V : Type) (vzero : V) N sr r (t : table V) before msgs ts h v0 vs, simd N ->
  whole_rate sr r -> 1 <= r <= 1048576 -> sound N t -> t_size t <= 2097152 ->
  blocks_ok N before -> punctual N 0 before ->
  let clock := N * zlen before in
  Forall (fun q => msg_ok (snd q) /\ fst q <= ts) msgs -> clock <= ts < clock + N ->
  0 <= h <= t_size t -> Forall (vec N) (v0 :: vs) ->
  exists st st1 t1 m, rboot vzero sr t = Ok st /\ rrun vzero N sr 0 st before = Some (Ok st1) /\ w_t st1 = Some t1 /\
    t_size t - N <= h + N * Z.of_nat m < t_size t + N /\
    exists st2 t2, rrun vzero N sr clock st1 ((msgs ++ [(ts, UStart (of_int h))], v0) :: map (fun v => ([], v)) vs) = Some (Ok st2) /\
      w_t st2 = Some t2 /\
      holds t2 h (concat (firstn m (v0 :: vs))) /\
      (forall x, 0 <= x < zlen (t_mem t1) -> ~ h <= x < h + N * Z.of_nat (min m (length (v0 :: vs))) -> get t2 x = get t1 x) /\
      ((m < length (v0 :: vs))%nat -> w_head st2 = STOPPED /\ w_pend st2 = []).
Proof.
  intros V vzero N sr r t before msgs ts h v0 vs HN W HR S0 S1 OK Pn clock M Ht Hh F.
  destruct (run_ok vzero N HN sr r W HR before t 0 STOPPED [] (conj S0 S1) I (Forall_nil _) (or_introl eq_refl) OK) as (t1 & h1 & p1 & E & S2 & Sz & So & Ev & _ & R).
  exists (state sr t STOPPED []), (state sr t1 h1 p1), t1.
  destruct (start_block vzero N HN sr r W HR t1 clock h1 p1 msgs ts h v0 vs S2 So (R Pn (fun _ i => match i with end)) M Ht ltac:(lia) F)
    as (m & Bm & t2 & h2 & p2 & E2 & S3 & Sz2 & Hd & Un & St).
  exists m. rewrite Sz in Bm. split; [apply boot_ok | ]. split; [exact E | ]. split; [reflexivity | ]. split; [exact Bm | ].
  exists (state sr t2 h2 p2), t2. split; [exact E2 | ]. split; [reflexivity | ]. split; [exact Hd | ]. split; [exact Un | ].
  intros L. apply St. cbn [length] in L. lia.
Qed.
Print Assumptions recorder_records.

(** A whole table cannot be recorded in general: one of 100 cells, Pd's default, at 48 kHz, started at time
    0 in a block of its own; the input is 1 throughout, and the last four cells stay 0. *)
Definition tab (n : nat) : table Z := mkTable (repeat (Some 0) (n + 4)) true (Z.of_nat n) (Z.of_nat n) (Z.of_nat n + 4) 0.
Lemma get_of (t : table Z) x v : nth_error (t_mem t) (Z.to_nat x) = Some (Some v) -> 0 <= x -> get t x = Ok v.
Proof.
  intros E H. assert (L : (Z.to_nat x < length (t_mem t))%nat) by (apply nth_error_Some; congruence).
  unfold get. replace (0 <=? x) with true by (symmetry; now apply Z.leb_le).
  replace (x <? zlen (t_mem t)) with true by (symmetry; apply Z.ltb_lt; unfold zlen; lia).
  cbn [andb]. now rewrite (nth_error_nth _ _ None E).
Qed.
Lemma tab_sound k : 4 * Z.of_nat (4 * k + 4) < 4294967296 -> sound 4 (tab (4 * k)).
Proof.
  intros B. assert (L : zlen (t_mem (tab (4 * k))) = Z.of_nat (4 * k + 4)) by (unfold tab, t_mem, zlen; now rewrite repeat_length).
  split; [ | split].
  - constructor; try (rewrite L); cbn [t_heap t_size t_allocated tab]; try reflexivity; try lia.
    intros x Hx. exists 0. apply get_of; [ | lia]. unfold tab, t_mem. apply nth_error_repeat. lia.
  - cbn [t_size tab]. exists (Z.of_nat k). lia.
  - reflexivity.
Qed.
Definition ones : list Z := [1; 1; 1; 1].
Definition rate48 : f64 := d_of_int 48000.
Lemma rate48_whole : whole_rate rate48 48000.
Proof. destruct (d_of_int_exact 48000) as [E F]; [lia | ]. split; [exact F | exact E]. Qed.
Theorem recorder_whole_refuted : exists (t : table Z) st st' t', sound 4 t /\ t_size t = 100 /\ rboot 0 rate48 t = Ok st /\
  rrun 0 4 rate48 0 st (([(0, UStart fzero)], ones) :: repeat ([], ones) 39) = Some (Ok st') /\ w_t st' = Some t' /\
  (forall x, 0 <= x < 96 -> get t' x = Ok 1) /\ (forall x, 96 <= x < 100 -> get t' x = Ok 0).
Proof.
  exists (tab 100). set (st := state rate48 (tab 100) STOPPED []). exists st.
  destruct (rrun 0 4 rate48 0 st (([(0, UStart fzero)], ones) :: repeat ([], ones) 39)) as [[st' | | ] | ] eqn:E; [ | exfalso..].
  2-4: apply (f_equal (fun o => match o with Some (Ok _) => true | _ => false end)) in E; vm_compute in E; discriminate.
  destruct (w_t st') as [t' | ] eqn:E'.
  2: { exfalso. apply (f_equal (fun o => match o with Some (Ok s) => match w_t s with Some _ => true | _ => false end | _ => false end)) in E. rewrite E' in E. vm_compute in E. discriminate. }
  exists st', t'.
  assert (C : t_mem t' = repeat (Some 1) 96 ++ repeat (Some 0) 8).
  { apply (f_equal (fun o => match o with Some (Ok s) => match w_t s with Some t => t_mem t | _ => [] end | _ => [] end)) in E. rewrite E' in E. rewrite <- E. vm_compute. reflexivity. }
  split; [apply (tab_sound 25); vm_compute; reflexivity | ]. split; [reflexivity | ]. split; [apply boot_ok | ]. split; [reflexivity | ]. split; [exact E' | ].
  split; intros x Hx; (apply get_of; [rewrite C | lia]).
  - rewrite nth_error_app1 by (rewrite repeat_length; lia). rewrite nth_error_repeat by lia. reflexivity.
  - rewrite nth_error_app2 by (rewrite repeat_length; lia). rewrite repeat_length, nth_error_repeat by lia. reflexivity.
Qed.
Print Assumptions recorder_whole_refuted.

(** "set" to a smaller table while recording writes behind the end of that table; "set" to a name that is no
    table makes the next recording dereference NULL. *)
Theorem recorder_set_refuted : exists (t small : table Z) st, sound 4 t /\ sound 4 small /\ rboot 0 rate48 t = Ok st /\
  rrun 0 4 rate48 0 st [([(0, UStart fzero)], ones); ([], ones); ([], ones); ([], ones); ([(16, USet (Some small))], ones)] = Some UB /\
  rrun 0 4 rate48 0 st [([(0, USet None); (1, UStart fzero)], ones)] = Some UB.
Proof.
  exists (tab 100), (tab 8), (state rate48 (tab 100) STOPPED []).
  split; [apply (tab_sound 25); vm_compute; reflexivity | ]. split; [apply (tab_sound 2); vm_compute; reflexivity | ]. split; [apply boot_ok | ].
  split; vm_compute; reflexivity.
Qed.
Print Assumptions recorder_set_refuted.

(** *** Cases that meet the hypotheses. *)
Example a_recorder : whole_rate rate48 48000 /\ sound 4 (tab 100) /\
  blocks_ok 4 [([(0, UStart (of_int 8)); (2, UOther)], ones); ([(5, UStop); (6, UStart B754_nan)], ones)] /\
  punctual 4 0 [([(0, UStart (of_int 8)); (2, @UOther Z)], ones); ([(5, UStop); (6, UStart B754_nan)], ones)].
Proof.
  split; [apply rate48_whole | ]. split; [apply (tab_sound 25); vm_compute; reflexivity | ]. split.
  - assert (number_ok (of_int 8)) by (right; destruct (Float32Facts.of_int_exact 8) as [E F]; [lia | ]; split; [exact F | ]; apply Rabs_le; change (B2R (of_int 8)) with (Float32Facts.R32 (of_int 8)); rewrite E; lra).
    assert (number_ok B754_nan) by (left; reflexivity).
    assert (vec 4 ones) by reflexivity.
    apply Forall_cons; [ | apply Forall_cons; [ | apply Forall_nil]]; (split; [ | assumption]);
      (apply Forall_cons; [ | apply Forall_cons; [ | apply Forall_nil]]); cbn [fst snd msg_ok]; auto.
  - cbn [punctual]. repeat (apply Forall_cons || apply Forall_nil || apply conj); cbn; auto; lia.
Qed.
