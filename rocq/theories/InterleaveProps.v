(** C27. *)
From Verif Require Import InterleaveModel InterleaveSpec InterleaveProofs.
Local Open Scope nat_scope.

Section S.
Context {A S : Type}.
Lemma planar_one n b (x : audio A) : planar 1 n b x <-> interleaved 1 n b x.
Proof.
  unfold planar, interleaved. split; intros [L H]; (split; [exact L|]); intros c j Hc Hj; assert (c = 0) by lia; subst;
  [ rewrite <- (H 0 j) | rewrite <- (H 0 j) ]; auto; f_equal; lia.
Qed.
Lemma uninterleave_ok bd C (x : audio A) n inp junk : n mod n_simd bd = 0 -> interleaved C n inp x -> C * n <= length junk ->
  exists b, uninterleave bd C inp junk n = Ok b /\ planar C n b x.
Proof.
  intros Hn Hi Lj. destruct C as [|[|[|C]]].
  - exists []. split; [reflexivity|]. split; [reflexivity|lia].
  - exists inp. split; [reflexivity|]. apply planar_one. auto.
  - assert (L : length (firstn (2 * n) junk) = 2 * n) by (rewrite firstn_length; lia).
    assert (Q : bd <> SCALAR -> exists q, n = q * 4).
    { intro NB. exists (n / 4). pose proof (Nat.div_mod n 4). destruct bd; cbn [n_simd] in Hn; try congruence; try lia.
      pose proof (Nat.div_mod n 8). assert (n mod 4 = 0); [|lia]. rewrite (Nat.div_mod n 8), Hn by lia.
      replace (8 * (n / 8) + 0) with (0 + (2 * (n / 8)) * 4) by lia. rewrite Nat.mod_add; [reflexivity|lia]. }
    unfold uninterleave. destruct bd.
    + destruct (Q ltac:(discriminate)) as [q ->]. apply deint_sse_ok; auto.
    + destruct (Q ltac:(discriminate)) as [q ->]. apply deint_sse_ok; auto.
    + destruct (Q ltac:(discriminate)) as [q ->]. apply deint_neon_ok; auto.
    + apply deint_scalar_ok; auto.
  - cbn [uninterleave]. apply deint_scalar_ok; auto. rewrite firstn_length. lia.
Qed.
Lemma n_simd_pos bd : 0 < n_simd bd. Proof. destruct bd; cbn; lia. Qed.
End S.

(** Planar rendering: for every build, every patch and every number of channels and frames (a
    multiple of the vector width), processInline reads every input sample once at its place, leaves
    the rendered audio at its place and stays inside the buffers. *)
Theorem planar_rendering : forall (A S : Type) (kernel : S -> list (list A) -> S * list (list A)) bd C D (d : A) n s x inp out,
  well_shaped kernel (n_simd bd) C D -> n mod n_simd bd = 0 ->
  planar C n inp x -> length out = D * n ->
  exists out', processInline kernel bd C D inp s out n = Ok (state_after kernel (n_simd bd) C s x (n / n_simd bd), out') /\
               planar D n out' (rendered kernel (n_simd bd) C d s x).
Proof.
  intros A S kernel bd C D d n s x inp out WS Hn [Li Hi] Lo. unfold processInline.
  pose proof (n_simd_pos bd) as NP. set (N := n_simd bd) in *.
  rewrite (proj2 (Nat.eqb_eq _ _) Hn). 
  rewrite (process_exec kernel N C D d WS NP _ _ inp out s x n Hi).
  assert (E : n = n / N * N) by (pose proof (Nat.div_mod n N); lia).
  destruct (pw_planar N D NP (rendered kernel N C d s x) (n / N) out) as (t & Et & P). { rewrite <- E; auto. }
  rewrite <- E in Et, P. rewrite Et. cbn [obind]. eauto.
Qed.

(** C27, for every build and every number of channels except stereo output on AVX. *)
Theorem interleaved_rendering : forall (A S : Type) (kernel : S -> list (list A) -> S * list (list A)) bd C D (d : A) n s x inp out junk1 junk2,
  ~ (bd = AVX /\ D = 2) ->
  well_shaped kernel (n_simd bd) C D -> 0 < n -> n mod n_simd bd = 0 ->
  interleaved C n inp x -> length out = D * n -> C * n <= length junk1 -> D * n <= length junk2 ->
  exists out', processInlineInterleaved kernel bd C D inp s out junk1 junk2 n = Ok (state_after kernel (n_simd bd) C s x (n / n_simd bd), out') /\
               interleaved D n out' (rendered kernel (n_simd bd) C d s x).
Proof.
  intros A S kernel bd C D d n s x inp out junk1 junk2 NA WS P0 Hn Hi Lo J1 J2. unfold processInlineInterleaved.
  pose proof (n_simd_pos bd) as NP. 
  assert (E : n / n_simd bd * n_simd bd = n) by (pose proof (Nat.div_mod n (n_simd bd)); lia).
  rewrite E. replace (n =? 0) with false by (symmetry; apply Nat.eqb_neq; lia). cbn [negb].
  destruct (uninterleave_ok bd C x n inp junk1 Hn Hi J1) as (b & -> & Pb). cbn [obind].
  destruct D as [|[|D]].
  - destruct (planar_rendering A S kernel bd C 0 d n s x b [] WS Hn Pb) as (o & -> & Po); [reflexivity|].
    cbn [obind]. exists out. split; auto. split; auto. intros c j Hc; inversion Hc.
  - destruct (planar_rendering A S kernel bd C 1 d n s x b out WS Hn Pb Lo) as (o & -> & Po).
    exists o. split; auto. apply planar_one; auto.
  - destruct (planar_rendering A S kernel bd C (Datatypes.S (Datatypes.S D)) d n s x b (firstn (Datatypes.S (Datatypes.S D) * n) junk2) WS Hn Pb) as (o & -> & Po).
    { rewrite firstn_length; lia. }
    cbn [obind]. set (y := rendered kernel (n_simd bd) C d s x) in *.
    assert (R : exists t, interleave bd (Datatypes.S (Datatypes.S D)) o n out = Ok t /\ interleaved (Datatypes.S (Datatypes.S D)) n t y).
    2:{ destruct R as (t & -> & Rt). cbn [obind]. eauto. }
    destruct D as [|D].
    + unfold interleave. destruct bd.
      * rewrite <- E in Po, Lo |- *. apply int_sse_ok; auto.
      * exfalso. auto.
      * rewrite <- E in Po, Lo |- *. apply int_neon_ok; auto.
      * apply int_scalar_ok; auto.
    + cbn [interleave]. apply int_scalar_ok; auto.
Qed.
(** Stereo output on AVX: frames 2, 3 and 4, 5 of every group of eight are exchanged. *)
Theorem interleaved_avx_stereo_does : forall (A S : Type) (kernel : S -> list (list A) -> S * list (list A)) C (d : A) n s x inp out junk1 junk2,
  well_shaped kernel 8 C 2 -> 0 < n -> n mod 8 = 0 ->
  interleaved C n inp x -> length out = 2 * n -> C * n <= length junk1 -> 2 * n <= length junk2 ->
  exists out', processInlineInterleaved kernel AVX C 2 inp s out junk1 junk2 n = Ok (state_after kernel 8 C s x (n / 8), out') /\
               interleaved 2 n out' (fun c j => rendered kernel 8 C d s x c
                 (match j mod 8 with 2 | 3 => j + 2 | 4 | 5 => j - 2 | _ => j end)).
Proof.
  intros A S kernel C d n s x inp out junk1 junk2 WS P0 Hn Hi Lo J1 J2. unfold processInlineInterleaved.
  assert (E : n / 8 * 8 = n) by (pose proof (Nat.div_mod n 8); lia).
  change (n_simd AVX) with 8. rewrite E. replace (n =? 0) with false by (symmetry; apply Nat.eqb_neq; lia). cbn [negb].
  destruct (uninterleave_ok AVX C x n inp junk1 Hn Hi J1) as (b & -> & Pb). cbn [obind].
  destruct (planar_rendering A S kernel AVX C 2 d n s x b (firstn (2 * n) junk2) WS Hn Pb) as (o & -> & Po).
  { rewrite firstn_length; lia. }
  cbn [obind]. unfold interleave. rewrite <- E in Po, Lo. 
  destruct (int_avx_does (n / 8) o (rendered kernel 8 C d s x) out Po Lo) as (t & Et & Pt).
  rewrite E in Et, Pt. rewrite Et. cbn [obind]. exists t. split; auto.
Qed.
Theorem interleaved_avx_stereo_refuted :
  let kernel := fun (s : unit) (ins : list (list nat)) => (s, ins) in     (* the patch that copies input to output *)
  let inp := [0;100; 1;101; 2;102; 3;103; 4;104; 5;105; 6;106; 7;107] in
  processInlineInterleaved kernel AVX 2 2 inp tt (repeat 0 16) (repeat 0 16) (repeat 0 16) 8 =
  Ok (tt, [0;100; 1;101; 4;104; 5;105; 2;102; 3;103; 6;106; 7;107]) /\
  processInlineInterleaved kernel SSE 2 2 inp tt (repeat 0 16) (repeat 0 16) (repeat 0 16) 8 = Ok (tt, inp).
Proof. split; reflexivity. Qed.

(** Frame counts that are not a positive multiple of the vector width never complete. *)
Theorem interleaved_bad_length : forall (A S : Type) (kernel : S -> list (list A) -> S * list (list A)) bd C D n s inp out junk1 junk2 r,
  n = 0 \/ n mod n_simd bd <> 0 ->
  processInlineInterleaved kernel bd C D inp s out junk1 junk2 n <> Ok r.
Proof.
  intros A S kernel bd C D n s inp out junk1 junk2 r H. unfold processInlineInterleaved.
  destruct H as [-> | H].
  - rewrite Nat.div_0_l by (destruct bd; discriminate). discriminate.
  - destruct (negb _); [|discriminate]. destruct (uninterleave bd C inp junk1 n); try discriminate. cbn [obind].
    assert (F : forall D im om, processInline kernel bd C D im s om n = AssertFail).
    { intros. unfold processInline. rewrite (proj2 (Nat.eqb_neq _ _) H). reflexivity. }
    destruct D as [|[|D]]; rewrite !F; discriminate.
Qed.
(** The entry assertion does not catch them: six frames pass it and the input is then read out of bounds. *)
Theorem interleaved_length_check_refuted :
  let kernel := fun (s : unit) (ins : list (list nat)) => (s, ins) in
  processInlineInterleaved kernel SSE 2 2 (repeat 1 12) tt (repeat 0 12) (repeat 0 12) (repeat 0 12) 6 = UB /\
  processInlineInterleaved kernel SSE 2 2 [] tt [] [] [] 0 = AssertFail.
Proof. split; reflexivity. Qed.

(** A patch with three inputs and two outputs (running sums) meets the hypotheses. *)
Example interleaved_example :
  let kernel := fun (s : nat) (ins : list (list nat)) =>
    (s + 1, [ map (fun l => s + nth l (nth 0 ins []) 0) [0;1;2;3];
              map (fun l => nth l (nth 1 ins []) 0 + nth l (nth 2 ins []) 0) [0;1;2;3] ]) in
  well_shaped kernel 4 3 2 /\
  processInlineInterleaved kernel NEON 3 2 (seq 0 24) 50 (repeat 0 16) (repeat 7 24) (repeat 9 16) 8 =
  Ok (52, [50;3; 53;9; 56;15; 59;21; 63;27; 66;33; 69;39; 72;45]).
Proof.
  cbv zeta. split; [|reflexivity]. intros s ins _ _. split; [reflexivity|]. repeat constructor.
Qed.

Print Assumptions planar_rendering.
Print Assumptions interleaved_rendering.
Print Assumptions interleaved_avx_stereo_does.
Print Assumptions interleaved_avx_stereo_refuted.
Print Assumptions interleaved_bad_length.
Print Assumptions interleaved_length_check_refuted.
