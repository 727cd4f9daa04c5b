(** C30 and C45: the oscillator's phase. *)
From Verif Require Import PhasorModel PhasorSpec PhasorProofs Float32Facts.
From Flocq Require Import Core.
From Coq Require Import Reals Lra Lia ZifyBool.
Local Open Scope Z_scope.

(** ** C30: phase messages *)
Lemma some_nat z : 0 <= z -> exists B, Z.of_nat B = z.
Proof. intro H. exists (Z.to_nat z). apply Z2Nat.id. exact H. Qed.
Lemma wrap_ok p : is_finite p = true -> (Rabs (R32 p) < IZR 16777220)%R ->
  exists fuel r, wrap_phase fuel p = Some r /\ is_finite r = true /\ (0 <= R32 r <= 1)%R /\
    ((0 <= R32 p <= IZR 16777216)%R -> exists k, R32 r = (R32 p - IZR k)%R).
Proof.
  intros F B. destruct (some_nat 16777217 ltac:(lia)) as [n En]. exists (S n).
  assert (N : IZR (Z.of_nat n) = IZR 16777217) by (rewrite En; reflexivity).
  assert (N' : IZR (Z.of_nat (S n)) = IZR 16777218) by (rewrite Nat2Z.inj_succ, En; reflexivity).
  unfold wrap_phase. destruct (Rle_lt_dec 0 (R32 p)) as [C|C].
  - rewrite up_stop by auto. rewrite Rabs_pos_eq in B by auto. destruct (Rle_lt_dec (R32 p) (IZR 16777216)) as [D|D].
    + destruct (down_ok (S n) p F) as (r & R1 & R2 & R3 & R4); [rewrite N'; lra|auto|]. exists r. auto.
    + assert (E : R32 p = IZR 16777218) by (rewrite <- (Rabs_pos_eq (R32 p)) by auto; apply above24; auto; rewrite Rabs_pos_eq by auto; lra).
      destruct (down_start p F E) as (F' & B' & _). destruct fone_R as [A1 B1]. cbn [wrap_down]. rewrite fltb_R, A1, Rlt_bool_true by (auto; lra).
      destruct (down_ok n (fsub p fone) F') as (r & R1 & R2 & R3 & R4); [rewrite N; lra|lra|]. exists r. rewrite R1. split; [reflexivity|]. split; [auto|]. split; [auto|]. intro. lra.
  - rewrite Rabs_left in B by auto. 
    assert (U : exists q, wrap_up (S n) p = Some q /\ is_finite q = true /\ (0 <= R32 q <= 1)%R).
    { destruct (Rle_lt_dec (- IZR 16777216) (R32 p)) as [D|D].
      - apply up_ok; auto; rewrite ?N'; lra.
      - assert (E : Rabs (R32 p) = IZR 16777218) by (apply above24; auto; rewrite Rabs_left by auto; lra). rewrite Rabs_left in E by auto.
        destruct (up_start p F) as [F' B']; [lra|]. cbn [wrap_up]. rewrite fltb_R by auto. rewrite Rlt_bool_true by (cbn; lra).
        apply up_ok; auto; rewrite ?N; lra. }
    destruct U as (q & Q1 & Q2 & Q3). rewrite Q1. exists q. rewrite down_stop by (auto; lra). split; [reflexivity|]. split; [auto|]. split; [auto|]. intro; lra.
Qed.

(** The wrapping loops of a phase message end exactly for numbers below 2^24 + 4 in magnitude. *)
Theorem phasor_wrap_terminates_iff : forall p, is_nan p = false ->
  ((exists fuel r, wrap_phase fuel p = Some r) <-> (is_finite p = true /\ (Rabs (R32 p) < IZR 16777220)%R)).
Proof.
  intros p NN. split.
  - intros (fuel & r & H). destruct p as [s|s| |s m e Hb]; try discriminate.
    + cbn. split; [reflexivity|]. rewrite Rabs_R0. lra.
    + exfalso. unfold wrap_phase in H. destruct s.
      * rewrite nhuge_none in H by (left; reflexivity). discriminate.
      * replace (wrap_up fuel (B754_infinity false)) with (Some (B754_infinity false : f32)) in H by (destruct fuel; reflexivity).
        rewrite huge_none in H by (left; reflexivity). discriminate.
    + set (p := B754_finite s m e Hb : f32) in *. split; [reflexivity|]. apply Rnot_le_lt. intro B. unfold wrap_phase in H.
      destruct (Rle_lt_dec 0 (R32 p)) as [C|C].
      * rewrite Rabs_pos_eq in B by auto. rewrite up_stop in H by (auto; reflexivity). rewrite huge_none in H by (right; split; [reflexivity|exact B]). discriminate.
      * rewrite Rabs_left in B by auto. rewrite nhuge_none in H; [discriminate|]. right. split; [reflexivity|]. lra.
  - intros [F B]. destruct (wrap_ok p F B) as (fuel & r & H & _). exists fuel, r. exact H.
Qed.
(** "Terminates for every input" is false: 2^24 + 4 never leaves the loop. *)
Theorem phasor_wrap_hangs_refuted : forall fuel, wrap_phase fuel (of_int 16777220) = None.
Proof.
  intro fuel. replace (of_int 16777220) with cbig by (apply B2SF_inj; vm_compute; reflexivity).
  destruct cbig_R as [A B]. unfold wrap_phase. rewrite up_stop by (auto; rewrite A; lra). apply huge_none. right. rewrite A. split; [auto|lra].
Qed.
(** When the loops end the result is in [0,1], and differs from a nonnegative input by an integer. *)
Lemma up_mono n : forall p r, wrap_up n p = Some r -> forall m, (n <= m)%nat -> wrap_up m p = Some r.
Proof.
  induction n; intros p r H m L.
  - cbn in H. destruct (fltb p fzero) eqn:E; [discriminate|]. destruct m; cbn; rewrite E; exact H.
  - destruct m; [lia|]. cbn in *. destruct (fltb p fzero); [|exact H]. apply IHn with (m := m); auto. lia.
Qed.
Lemma down_mono n : forall p r, wrap_down n p = Some r -> forall m, (n <= m)%nat -> wrap_down m p = Some r.
Proof.
  induction n; intros p r H m L.
  - cbn [wrap_down] in H. destruct (fltb fone p) eqn:E; [discriminate|]. destruct m; cbn [wrap_down]; rewrite E; exact H.
  - destruct m; [lia|]. cbn [wrap_down] in *. destruct (fltb fone p); [|exact H]. apply IHn with (m := m); auto. lia.
Qed.
Lemma wrap_mono n p r : wrap_phase n p = Some r -> forall m, (n <= m)%nat -> wrap_phase m p = Some r.
Proof.
  unfold wrap_phase. destruct (wrap_up n p) as [q|] eqn:E; [|discriminate]. intros H m L.
  rewrite (up_mono n p q E m L). apply (down_mono n q r H m L).
Qed.
Theorem phasor_wrap_result : forall p fuel r, is_nan p = false -> wrap_phase fuel p = Some r ->
  is_finite r = true /\ (0 <= R32 r <= 1)%R /\
  ((0 <= R32 p <= IZR 16777216)%R -> exists k, R32 r = (R32 p - IZR k)%R).
Proof.
  intros p fuel r NN H. destruct (proj1 (phasor_wrap_terminates_iff p NN)) as [F B]; [eauto|].
  destruct (wrap_ok p F B) as (fuel' & r' & H' & K). 
  pose proof (wrap_mono _ _ _ H (Nat.max fuel fuel') ltac:(lia)) as M1. pose proof (wrap_mono _ _ _ H' (Nat.max fuel fuel') ltac:(lia)) as M2.
  rewrite M1 in M2. injection M2 as ->. exact K.
Qed.

(** The wrapped phase becomes a 32 bit turn counter: exactly floor(phase * 2^32) when it is below one. *)
Theorem phasor_phase_message : forall r, is_finite r = true -> (0 <= R32 r < 1)%R ->
  exists P, phase_u32 r = Ok P /\ 0 <= P < turn /\ P = Zfloor (R32 r * IZR turn).
Proof.
  intros r F B. destruct (repr24 r F) as (m & e & E & M & X); [rewrite Rabs_pos_eq; lra|].
  destruct (dyadic_exact 1 32) as [A2 B2]; [change (2 ^ 24) with 16777216; lia|lia|].
  assert (T : bpow radix2 32 = IZR turn) by reflexivity.
  destruct (fmul_exact r two32f m (e + 32) F B2) as [C D].
  - unfold two32f. rewrite A2, E, bpow_plus. ring.
  - change (2 ^ 24) with 16777216. lia.
  - lia.
  - assert (C' : R32 (fmul r two32f) = (R32 r * IZR turn)%R) by (rewrite C, E, bpow_plus, T; ring).
    assert (Z0 : 0 <= Zfloor (R32 r * IZR turn) < turn).
    { split.
      - apply Zfloor_lub. apply Rmult_le_pos; [lra|apply IZR_le; unfold turn; lia].
      - apply lt_IZR. apply Rle_lt_trans with (R32 r * IZR turn)%R; [apply Zfloor_lb|].
        replace (IZR turn) with (1 * IZR turn)%R at 2 by ring. apply Rmult_lt_compat_r; [apply IZR_lt; unfold turn; lia|lra]. }
    exists (Zfloor (R32 r * IZR turn)). split; [|split; [exact Z0|reflexivity]].
    unfold phase_u32, to_u32. rewrite D, trunc_R, C'. rewrite Ztrunc_floor by (apply Rmult_le_pos; [lra|apply IZR_le; unfold turn; lia]).
    unfold turn in *. replace ((0 <=? _) && (_ <? 4294967296)) with true by lia. reflexivity.
Qed.
(** A phase message with any positive integer up to 2^24 wraps to exactly 1.0 and its conversion to
    the turn counter is undefined. *)
Theorem phasor_phase_integer_refuted : forall k, 1 <= k <= 16777216 ->
  exists fuel r, wrap_phase fuel (of_int k) = Some r /\ R32 r = 1%R /\ phase_u32 r = UB.
Proof.
  intros k K. destruct (of_int_exact k) as [A B]; [change (2 ^ 24) with 16777216; lia|].
  assert (K1 : (1 <= IZR k)%R) by (apply IZR_le; lia). assert (K2 : (IZR k <= IZR 16777216)%R) by (apply IZR_le; lia).
  destruct (some_nat k ltac:(lia)) as [n En].
  assert (G : forall n p, is_finite p = true -> R32 p = IZR (Z.of_nat n) -> (1 <= n)%nat -> Z.of_nat n <= 16777216 ->
     exists r, wrap_down n p = Some r /\ is_finite r = true /\ R32 r = 1%R).
  { clear. induction n as [|n IH]; intros p F E L U; [lia|]. destruct (Nat.eq_dec n 0) as [ -> |Nz].
    - exists p. rewrite down_stop by (auto; rewrite E; cbn; lra). auto.
    - destruct fone_R as [A1 B1]. cbn [wrap_down]. rewrite fltb_R, A1 by auto.
      assert (R : (2 <= R32 p)%R) by (rewrite E; apply IZR_le; lia). assert (R' : (R32 p <= IZR 16777216)%R) by (rewrite E; apply IZR_le; lia).
      rewrite Rlt_bool_true by lra. destruct (step_down p F) as [F' E']; [lra|]. apply IH; auto; try lia.
      rewrite E', E, Nat2Z.inj_succ, succ_IZR. ring. }
  destruct (G n (of_int k)) as (r & R1 & R2 & R3); auto; try lia; [rewrite A, En; reflexivity|].
  exists n, r. split; [|split; [exact R3|]].
  - unfold wrap_phase. rewrite up_stop by (auto; rewrite A; lra). exact R1.
  - destruct (dyadic_exact 1 32) as [A2 B2]; [change (2 ^ 24) with 16777216; lia|lia|].
    destruct (fmul_exact r two32f 1 32 R2 B2) as [C D]; [unfold two32f; rewrite A2, R3; ring|change (2 ^ 24) with 16777216; lia|lia|].
    unfold phase_u32, to_u32. rewrite D, trunc_R, C. rewrite bpow_m by lia. rewrite Ztrunc_IZR. reflexivity.
Qed.

(** ** C30: every output is in [0,1) *)
Definition in_range (y : f32) : Prop := is_finite y = true /\ (0 <= R32 y < 1)%R.
(** y is the sample of turn counter P: its top 23 bits, exactly. *)
Definition shows (y : f32) (P : Z) : Prop := 0 <= P < turn /\ is_finite y = true /\ R32 y = sample P.
Lemma shows_out P : 0 <= P < turn -> shows (phase_out P) P.
Proof. intro H. split; [exact H|]. apply phase_out_exact. exact H. Qed.
Theorem phasor_sample_range : forall y P, shows y P -> in_range y /\ (IZR P / IZR turn - 1 / IZR 8388608 < R32 y <= IZR P / IZR turn)%R.
Proof.
  intros y P (H & F & E). split; [split; [exact F|rewrite E; apply sample_range; exact H]|]. rewrite E. unfold sample, turn.
  pose proof (Z.div_mod P 512 ltac:(lia)) as D. pose proof (Z.mod_pos_bound P 512 ltac:(lia)) as M.
  assert (Q : IZR P = (512 * IZR (P / 512) + IZR (P mod 512))%R) by (rewrite D at 1; rewrite plus_IZR, mult_IZR; reflexivity).
  assert (0 <= IZR (P mod 512))%R by (apply IZR_le; lia). assert (IZR (P mod 512) < 512)%R by (apply IZR_lt; lia). lra.
Qed.

(** ** C45: signal-rate frequency.  The step of a sample is its frequency times 2^32/samplerate,
    converted to an integer as the build does it. *)
Definition vector_event (cvt : f32 -> Z) (f2sc : f32) (op : osc_op (vec4 f32)) : osc_event :=
  match op with
  | OBlock x => Steps (map (fun b => cvt (fmul b f2sc)) (list4 x))
  | OPhase p => SetPhase p
  end.
Definition phase_ok {X} (op : osc_op X) : Prop := match op with OBlock _ => True | OPhase p => 0 <= p < turn end.
Lemma mod_turn z : 0 <= z mod turn < turn.
Proof. apply Z.mod_pos_bound. reflexivity. Qed.
Lemma em_mod a b : a mod turn = b mod turn -> (a mod turn) mod turn = b mod turn.
Proof. intro H. rewrite Zmod_mod. exact H. Qed.
Lemma em_add a a' b b' : a mod turn = a' mod turn -> b mod turn = b' mod turn -> (a + b) mod turn = (a' + b') mod turn.
Proof. intros H1 H2. rewrite Zplus_mod, H1, H2, <- Zplus_mod. reflexivity. Qed.
Lemma em_both a a' b b' : a mod turn = a' mod turn -> b mod turn = b' mod turn -> a' = b' -> a mod turn = b mod turn.
Proof. intros H1 H2 ->. congruence. Qed.
Ltac em := lazymatch goal with
  | |- (_ mod turn) mod turn = _ => apply em_mod; em
  | |- (_ + _) mod turn = _ => eapply em_add; em
  | _ => reflexivity end.
Ltac modring := eapply em_both; [em|em|ring].
Lemma osc4_sim cvt f ops : Forall phase_ok ops -> forall P, 0 <= P < turn ->
  Forall2 shows (osc4_run cvt {| p4_phase := set1 P; p4_f2sc := f |} ops) (osc true P (map (vector_event cvt f) ops)).
Proof.
  induction 1 as [|op ops Hop _ IH]; intros P HP; [constructor|]. destruct op as [[a b c d]|p].
  - cbn [osc4_run map vector_event osc list4 osc_block].
    set (s0 := cvt (fmul a f)). set (s1 := cvt (fmul b f)). set (s2 := cvt (fmul c f)). set (s3 := cvt (fmul d f)).
    cbn [osc4_f map4 p4_f2sc p4_phase set1 shift_up vext Nat.sub Nat.add Nat.ltb Nat.leb lane add32 map2_4]. fold s0 s1 s2 s3.
    set (q0 := (P + s0) mod turn). set (q1 := (q0 + s1) mod turn). set (q2 := (q1 + s2) mod turn). set (q3 := (q2 + s3) mod turn).
    change u32 with (fun z => z mod turn). cbv beta.
    assert (E0 : (P + (((s0 mod turn + 0) mod turn + 0) mod turn)) mod turn = q0) by (unfold q0; modring).
    assert (E1 : (P + (((s1 mod turn + s0 mod turn) mod turn + 0) mod turn)) mod turn = q1) by (unfold q1, q0; modring).
    assert (E2 : (P + (((s2 mod turn + s1 mod turn) mod turn + (s0 mod turn + 0) mod turn) mod turn)) mod turn = q2) by (unfold q2, q1, q0; modring).
    assert (E3 : (P + (((s3 mod turn + s2 mod turn) mod turn + (s1 mod turn + s0 mod turn) mod turn) mod turn)) mod turn = q3) by (unfold q3, q2, q1, q0; modring).
    rewrite E0, E1, E2, E3. cbn [list4 app].
    constructor; [apply shows_out, mod_turn|]. constructor; [apply shows_out, mod_turn|].
    constructor; [apply shows_out, mod_turn|]. constructor; [apply shows_out, mod_turn|]. apply IH. apply mod_turn.
  - cbn [osc4_run map vector_event osc]. apply IH. exact Hop.
Qed.
Theorem phasor_vector_phase : forall cvt f2sc ops, Forall phase_ok ops ->
  Forall2 shows (osc4_run cvt (osc4_init f2sc) ops) (osc true 0 (map (vector_event cvt f2sc) ops)).
Proof. intros. apply osc4_sim; auto. unfold turn; lia. Qed.

(** Scalar build: the same counter, but the step is truncated and the output is taken before it. *)
Definition scalar_event (f2sc : f32) (op : osc_op f32) : osc_event :=
  match op with OBlock x => Steps [Btrunc (fmul x f2sc)] | OPhase p => SetPhase p end.
Definition step_defined (f2sc : f32) (op : osc_op f32) : Prop :=
  match op with
  | OBlock x => is_finite (fmul x f2sc) = true /\ int_min <= Btrunc (fmul x f2sc) <= int_max
  | OPhase p => 0 <= p < turn
  end.
Lemma osc1_sim f ops : Forall (step_defined f) ops -> forall P, 0 <= P < turn ->
  exists l, osc1_run {| p1_phase := P; p1_f2sc := f |} ops = Ok l /\ Forall2 shows l (osc false P (map (scalar_event f) ops)).
Proof.
  induction 1 as [|op ops Hop _ IH]; intros P HP; [exists []; split; [reflexivity|constructor]|]. destruct op as [x|p].
  - destruct Hop as [F B]. cbn [osc1_run map scalar_event osc osc_block]. unfold osc1_f. cbn [p1_phase p1_f2sc]. unfold to_int. rewrite F.
    unfold fits_int. replace ((int_min <=? Btrunc (fmul x f)) && (Btrunc (fmul x f) <=? int_max)) with true by lia. cbn [obind].
    change (u32 (P + Btrunc (fmul x f))) with ((P + Btrunc (fmul x f)) mod turn).
    destruct (IH ((P + Btrunc (fmul x f)) mod turn) (mod_turn _)) as (l & -> & L). cbn [obind]. eexists. split; [reflexivity|].
    cbn [app]. constructor; [apply shows_out; exact HP|exact L].
  - cbn [osc1_run map scalar_event osc p1_f2sc]. apply IH. exact Hop.
Qed.
Theorem phasor_scalar_phase : forall f2sc ops, Forall (step_defined f2sc) ops ->
  exists l, osc1_run (osc1_init f2sc) ops = Ok l /\ Forall2 shows l (osc false 0 (map (scalar_event f2sc) ops)).
Proof. intros. apply osc1_sim; auto. unfold turn; lia. Qed.
(** Scalar build, frequency of half the sample rate: the step 2^31 does not fit an int. *)
Theorem phasor_scalar_nyquist_refuted :
  osc1_run (osc1_init (fdyadic 1 16)) [OBlock (fdyadic 1 15)] = UB.
Proof. vm_compute. reflexivity. Qed.
(** SSE rounds the step to nearest, NEON and scalar truncate: at 0.75 steps per sample the former
    advances and the latter never do. *)
Theorem phasor_builds_disagree_refuted :
  let x := fdyadic 3 (-2) in
  forall n, osc true 0 (map (vector_event cvt_sse fone) (repeat (OBlock (set1 x)) n)) = map (fun i => Z.of_nat i mod turn) (seq 1 (4 * n)) /\
            osc true 0 (map (vector_event cvt_neon fone) (repeat (OBlock (set1 x)) n)) = repeat 0 (4 * n).
Proof.
  intros x n.
  assert (C1 : cvt_sse (fmul x fone) = 1) by (vm_compute; reflexivity).
  assert (C2 : cvt_neon (fmul x fone) = 0) by (vm_compute; reflexivity).
  split.
  - assert (G : forall n b, osc true (Z.of_nat b mod turn) (map (vector_event cvt_sse fone) (repeat (OBlock (set1 x)) n)) = map (fun i => Z.of_nat i mod turn) (seq (S b) (4 * n))).
    { clear n. induction n as [|n IH]; intro b; [reflexivity|]. replace (4 * S n)%nat with (4 + 4 * n)%nat by lia.
      cbn [repeat map vector_event osc]. change (list4 (set1 x)) with [x; x; x; x]. cbn [map osc_block]. rewrite C1. 
      assert (A : forall k, (Z.of_nat k mod turn + 1) mod turn = Z.of_nat (S k) mod turn) by (intro k; rewrite Zplus_mod_idemp_l; f_equal; lia).
      rewrite !A. rewrite IH. cbn [Nat.add seq map app]. reflexivity. }
    apply (G n 0%nat).
  - induction n as [|n IH]; [reflexivity|]. replace (4 * S n)%nat with (4 + 4 * n)%nat by lia.
    cbn [repeat map vector_event osc]. change (list4 (set1 x)) with [x; x; x; x]. cbn [map osc_block]. rewrite C2. assert (Z0 : (0 + 0) mod turn = 0) by reflexivity. rewrite !Z0. rewrite IH. reflexivity.
Qed.

(** ** C45: control-rate frequency.  All integer builds show the same turn counter. *)
Definition kevent (op : kosc_op) : kosc_event := match op with KBlock => Block | KFreq z => Freq z | KPhase p => Phase p end.
(** Frequencies below an eighth of the sample rate (vector builds), below half (scalar). *)
Definition kfine (bound : Z) (op : kosc_op) : Prop :=
  match op with KBlock => True | KFreq z => - bound <= z < bound | KPhase p => 0 <= p < turn end.
Lemma kosc4_sim ops : Forall (kfine 536870912) ops -> forall P s, 0 <= P < turn -> -536870912 <= s < 536870912 ->
  exists l, kosc4_run {| k4_phase := V4 P ((s + P) mod turn) ((2 * s + P) mod turn) ((3 * s + P) mod turn); k4_inc := 4 * s; k4_s := s |} ops = Ok l
  /\ Forall2 shows l (kosc 4 P s (map kevent ops)).
Proof.
  assert (SM : forall k s, 0 <= k <= 4 -> -536870912 <= s < 536870912 -> smul k s = Ok (k * s)).
  { intros k s K S. unfold smul, fits_int, int_min, int_max. replace ((-2147483648 <=? k * s) && (k * s <=? 2147483647)) with true; [reflexivity|].
    symmetry. apply andb_true_intro. split; [apply Z.leb_le|apply Z.leb_le]; nia. }
  induction 1 as [|op ops Hop _ IH]; intros P s HP HS; [exists []; split; [reflexivity|constructor]|]. destruct op as [|z|p].
  - cbn [kosc4_run map kevent kosc kosc4_f k4_phase k4_inc k4_s add32 map2_4 set1 map4].
    change u32 with (fun z => z mod turn). cbv beta.
    set (Q := (P + Z.of_nat 4 * s) mod turn).
    replace ((P + 4 * s) mod turn) with Q by reflexivity.
    replace (((s + P) mod turn + 4 * s) mod turn) with ((s + Q) mod turn) by (unfold Q; modring).
    replace (((2 * s + P) mod turn + 4 * s) mod turn) with ((2 * s + Q) mod turn) by (unfold Q; modring).
    replace (((3 * s + P) mod turn + 4 * s) mod turn) with ((3 * s + Q) mod turn) by (unfold Q; modring).
    destruct (IH Q s (mod_turn _) HS) as (l & -> & L). cbn [obind]. eexists. split; [reflexivity|].
    cbn [list4 seq map app].
    replace ((P + Z.of_nat 0 * s) mod turn) with P by (symmetry; cbn [Z.of_nat]; rewrite Z.mul_0_l, Z.add_0_r; apply Z.mod_small; auto).
    replace ((P + Z.of_nat 1 * s) mod turn) with ((s + P) mod turn) by (f_equal; cbn [Z.of_nat]; lia).
    replace ((P + Z.of_nat 2 * s) mod turn) with ((2 * s + P) mod turn) by (f_equal; lia).
    replace ((P + Z.of_nat 3 * s) mod turn) with ((3 * s + P) mod turn) by (f_equal; lia).
    constructor; [apply shows_out; auto|]. constructor; [apply shows_out, mod_turn|].
    constructor; [apply shows_out, mod_turn|]. constructor; [apply shows_out, mod_turn|]. exact L.
  - cbn [kosc4_run map kevent kosc]. unfold kosc4_freq. cbn [k4_phase k4_inc k4_s lane]. cbn [kfine] in Hop.
    replace (fits_int z) with true by (unfold fits_int, int_min, int_max; lia).
    rewrite SM by (auto; lia). cbn [obind]. unfold kosc4_phase. cbn [k4_s k4_inc]. rewrite !SM by (auto; lia). cbn [obind].
    apply IH; auto.
  - cbn [kosc4_run map kevent kosc]. unfold kosc4_phase. cbn [k4_phase k4_inc k4_s]. rewrite !SM by (auto; lia). cbn [obind]. apply IH; auto.
Qed.
Theorem phasor_k_vector_phase : forall ops, Forall (kfine 536870912) ops ->
  exists l, kosc4_run kosc4_zero ops = Ok l /\ Forall2 shows l (kosc 4 0 0 (map kevent ops)).
Proof. intros ops H. apply (kosc4_sim ops H 0 0); unfold turn; lia. Qed.
Lemma kosc1_sim ops : Forall (kfine 2147483648) ops -> forall P s, 0 <= P < turn ->
  exists l, kosc1_run {| k1_phase := P; k1_inc := s |} ops = Ok l /\ Forall2 shows l (kosc 1 P s (map kevent ops)).
Proof.
  induction 1 as [|op ops Hop _ IH]; intros P s HP; [exists []; split; [reflexivity|constructor]|]. destruct op as [|z|p].
  - cbn [kosc1_run map kevent kosc kosc1_f k1_phase k1_inc]. change (u32 (P + s)) with ((P + s) mod turn).
    destruct (IH ((P + s) mod turn) s (mod_turn _)) as (l & -> & L). cbn [obind]. eexists. split; [reflexivity|].
    cbn [seq map app]. replace ((P + Z.of_nat 0 * s) mod turn) with P by (symmetry; cbn [Z.of_nat]; rewrite Z.mul_0_l, Z.add_0_r; apply Z.mod_small; auto).
    replace ((P + Z.of_nat 1 * s) mod turn) with ((P + s) mod turn) by (f_equal; cbn [Z.of_nat]; lia).
    constructor; [apply shows_out; auto|exact L].
  - cbn [kosc1_run map kevent kosc]. unfold kosc1_freq. cbn [k1_phase]. cbn [kfine] in Hop.
    replace (fits_int z) with true by (unfold fits_int, int_min, int_max; lia). cbn [obind]. apply IH; auto.
  - cbn [kosc1_run map kevent kosc k1_inc]. apply IH; auto.
Qed.
Theorem phasor_k_scalar_phase : forall ops, Forall (kfine 2147483648) ops ->
  exists l, kosc1_run kosc1_zero ops = Ok l /\ Forall2 shows l (kosc 1 0 0 (map kevent ops)).
Proof. intros ops H. apply (kosc1_sim ops H 0 0); unfold turn; lia. Qed.
(** An eighth of the sample rate: 4*step overflows a signed int in the vector builds; half: in all. *)
Theorem phasor_k_overflow_refuted :
  kosc4_run kosc4_zero [KFreq 536870912] = UB /\ kosc1_run kosc1_zero [KFreq 2147483648] = UB.
Proof. split; vm_compute; reflexivity. Qed.

(** ** AVX *)
Lemma Forall_list8 {A} (P : A -> Prop) (v : vec8 A) : (forall a b c d e f g h, v = V8 (V4 a b c d) (V4 e f g h) -> P a /\ P b /\ P c /\ P d /\ P e /\ P f /\ P g /\ P h) -> Forall P (list8 v).
Proof. destruct v as [[a b c d] [e f g h]]. intro H. destruct (H _ _ _ _ _ _ _ _ eq_refl) as (?&?&?&?&?&?&?&?). cbn. auto 10. Qed.
Lemma out8 (v : vec8 f32) : Forall in_range (list8 (map8 (fun y => fsub y fone) (map8 wrap12 v))).
Proof. destruct v as [[a b c d] [e f g h]]. cbn [map8 map4 list8 list4 app]. repeat (constructor; [apply wrap12_out|]). constructor. Qed.
Theorem phasor_avx_range : forall f2sc ops, Forall in_range (osc8_run (osc8_init f2sc) ops).
Proof.
  intros f2sc ops. generalize (osc8_init f2sc). induction ops as [|op ops IH]; intro o; [constructor|].
  destruct op as [x|p]; cbn [osc8_run]; [|apply IH]. unfold osc8_f. apply Forall_app. split; [apply out8|apply IH].
Qed.
Theorem phasor_k_avx_range : forall s inc ops, Forall in_range (kosc8_run (kosc8_init s inc) ops).
Proof.
  intros s inc ops.
  assert (G : forall ops o, (exists v, k8_phase o = map8 wrap12 v) -> Forall in_range (kosc8_run o ops)).
  { clear. induction ops as [|op ops IH]; intros o [v V]; [constructor|]. destruct op as [|s inc|p]; cbn [kosc8_run].
    - unfold kosc8_f. apply Forall_app. split; [rewrite V; apply out8|]. apply IH. eexists. reflexivity.
    - apply IH. eexists. reflexivity.
    - apply IH. eexists. reflexivity. }
  apply G. eexists. reflexivity.
Qed.
(** The shuffles do compute prefix sums (exact arithmetic). *)
Theorem phasor_avx_prefix : forall a b c d e f g h : R, prefix8 Rplus 0%R (V8 (V4 a b c d) (V4 e f g h)) =
  V8 (V4 a (a+b) (a+b+c) (a+b+c+d))%R (V4 (a+b+c+d+e) (a+b+c+d+e+f) (a+b+c+d+e+f+g) (a+b+c+d+e+f+g+h))%R.
Proof. intros. cbv [prefix8 set1_8 set1 permute8 permute2f128 sel128 shuffle lane blend8 blend map2_8 map2_4]. f_equal; f_equal; ring. Qed.
(** But wrapping is wrong: clearing the exponent halves the excess.  At a quarter turn per sample
    the fifth sample should be 1/4 and is 1/8. *)
Theorem phasor_avx_wrap_refuted : let quarter := fdyadic 1 (-2) in
  nth 4 (osc8_run (osc8_init fone) [O8Block (set1_8 quarter)]) fzero = fdyadic 1 (-3).
Proof. apply B2SF_inj. vm_compute. reflexivity. Qed.
(** And a frequency message halves the phase: after one block of 1/16 turn per sample the phase is
    1/2; setting the same frequency again makes it 1/4. *)
Theorem phasor_avx_frequency_refuted : let s := fdyadic 1 (-4) in let inc := fdyadic 1 (-1) in
  nth 8 (kosc8_run (kosc8_init s inc) [K8Block; K8Block]) fzero = fdyadic 1 (-1) /\
  nth 8 (kosc8_run (kosc8_init s inc) [K8Block; K8Freq s inc; K8Block]) fzero = fdyadic 1 (-2).
Proof. split; apply B2SF_inj; vm_compute; reflexivity. Qed.

(** ** Range for the integer builds, as a corollary *)
Lemma shows_range l m : Forall2 shows l m -> Forall in_range l.
Proof. induction 1; constructor; auto. eapply phasor_sample_range; eauto. Qed.
Theorem phasor_range : forall ops kops f2sc cvt sops,
  (Forall phase_ok ops -> Forall in_range (osc4_run cvt (osc4_init f2sc) ops)) /\
  (Forall (step_defined f2sc) sops -> exists l, osc1_run (osc1_init f2sc) sops = Ok l /\ Forall in_range l) /\
  (Forall (kfine 536870912) kops -> exists l, kosc4_run kosc4_zero kops = Ok l /\ Forall in_range l) /\
  (Forall (kfine 2147483648) kops -> exists l, kosc1_run kosc1_zero kops = Ok l /\ Forall in_range l).
Proof.
  intros. split; [|split; [|split]]; intro H.
  - eapply shows_range, phasor_vector_phase; auto.
  - destruct (phasor_scalar_phase _ _ H) as (l & E & L). exists l. split; [exact E|eapply shows_range; eauto].
  - destruct (phasor_k_vector_phase _ H) as (l & E & L). exists l. split; [exact E|eapply shows_range; eauto].
  - destruct (phasor_k_scalar_phase _ H) as (l & E & L). exists l. split; [exact E|eapply shows_range; eauto].
Qed.

(** Hypotheses are met: 440 Hz at 44100 Hz with phase and frequency changes. *)
Example phasor_session : Forall (kfine 536870912) [KFreq 42852281; KBlock; KBlock; KPhase 2147483648; KBlock; KFreq (-42852281); KBlock].
Proof. repeat constructor; cbn; unfold turn; lia. Qed.
Example phasor_session_a : Forall (step_defined (fdyadic 1 16)) [OBlock (of_int 440); OBlock (of_int (-440)); OPhase 5; OBlock fzero].
Proof. repeat constructor; vm_compute; discriminate. Qed.
Example phasor_message : is_nan (of_int 3) = false /\ is_finite (of_int 3) = true /\ (Rabs (R32 (of_int 3)) < IZR 16777220)%R.
Proof. destruct (of_int_exact 3) as [A B]; [change (2 ^ 24) with 16777216; lia|]. rewrite A, Rabs_pos_eq by lra. split; [reflexivity|]. split; [exact B|lra]. Qed.

Print Assumptions phasor_wrap_terminates_iff.
Print Assumptions phasor_range.
Print Assumptions phasor_k_vector_phase.
Print Assumptions phasor_avx_wrap_refuted.
Print Assumptions phasor_wrap_hangs_refuted.
Print Assumptions phasor_wrap_result.
Print Assumptions phasor_phase_message.
Print Assumptions phasor_phase_integer_refuted.
Print Assumptions phasor_sample_range.
Print Assumptions phasor_vector_phase.
Print Assumptions phasor_scalar_phase.
Print Assumptions phasor_scalar_nyquist_refuted.
Print Assumptions phasor_builds_disagree_refuted.
Print Assumptions phasor_k_scalar_phase.
Print Assumptions phasor_k_overflow_refuted.
Print Assumptions phasor_avx_range.
Print Assumptions phasor_k_avx_range.
Print Assumptions phasor_avx_prefix.
Print Assumptions phasor_avx_frequency_refuted.
