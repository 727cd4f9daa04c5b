(** The convolution [conv~]: C39, C59. *)
From Coq Require Import ZifyBool.
From Verif Require Import TableSpec TableProofs EnvProofs ConvProofs ConvProofs2.
From Verif Require Export ConvModel ConvSpec.
From Coq Require Import Lia Ring_theory InitialRing.

Definition zeros {A} (zero : A) (b : build) (t : table A) : Prop := owns (lanes b) t /\ t_head t = 0 /\ forall x, 0 <= x < t_size t -> get t x = Ok zero.
Lemma simd_lanes b : simd (lanes b). Proof. unfold simd. destruct b; cbn; auto. Qed.
Lemma pad_unique N n s s' : 0 < N -> is_padded N n s -> is_padded N n s' -> s = s'.
Proof. intros HN ((k & ->) & H1) ((j & ->) & H2). assert (k = j) by nia. subst. reflexivity. Qed.
Lemma resize_head {A} (zero : A) N al t k t' : hTable_resize zero N al t k = Ok t' -> t_head t' = t_head t.
Proof.
  unfold hTable_resize. destruct (pad N k =? t_size t); [intros [= <-]; reflexivity|]. destruct (negb (t_heap t)); [discriminate|].
  match goal with |- obind ?x _ = _ -> _ => destruct x end; cbn [obind]; [|discriminate|discriminate]. intros [= <-]. reflexivity.
Qed.
Lemma last_default {X} (l : list X) d d' : l <> [] -> last l d = last l d'.
Proof. induction l as [|x [|y l] IH]; intros H; [congruence|reflexivity|]. cbn [last] in *. apply IH. discriminate. Qed.
Lemma setup_zeros {A} (zero : A) b size sizes : let ok k := 0 <= k /\ 4 * (k + 2 * lanes b) < 4294967296 in
  ok size -> Forall (fun p => ok (snd p)) sizes ->
  exists t, sConv_setup zero b size sizes = Ok t /\ zeros zero b t /\ is_padded (lanes b) (last (map snd sizes) size) (t_size t).
Proof.
  intros ok (H1 & H2) HF. unfold sConv_setup, sConv_init. destruct (init_owns zero (lanes b) (simd_lanes b) size H1 H2) as (t & E & HO & _ & HP & HZ).
  assert (HH : t_head t = 0). { unfold hTable_init in E. destruct ((0 <=? size) && (size + (lanes b - 1) <=? int_max)); [|discriminate]. destruct (clear_cells _ _ _ _); try discriminate. cbn [obind] in E. injection E as <-. reflexivity. }
  rewrite E. cbn [obind]. clear E. assert (HZ0 : zeros zero b t) by (split; auto). clear HO HZ HH H1 H2.
  revert size t HP HZ0. induction sizes as [|[al k] sizes IH]; intros size t HP HZ0; [exists t; auto|].
  inversion HF as [|? ? (K1 & K2) HF']; subst. cbn [snd] in *. destruct HZ0 as (HO & HH & HZ). cbn [resizes]. unfold sConv_setSize.
  destruct (resize_spec zero (lanes b) (simd_lanes b) al t k HO K1 K2) as (t' & E & HO' & HP' & _ & _ & Hkeep).
  pose proof (resize_head _ _ _ _ _ _ E) as HH'. rewrite E. cbn [obind]. destruct (IH HF' k t' HP') as (t2 & E2 & Z2 & P2).
  - split; [exact HO'|]. split; [congruence|]. intros x Hx. destruct Hkeep as (Hk1 & Hk2). destruct (Z_lt_ge_dec x (t_size t)).
    + rewrite Hk1 by lia. apply HZ. lia.
    + apply Hk2. lia.
  - exists t2. split; [exact E2|]. split; [exact Z2|]. cbn [map snd]. destruct sizes as [|p sizes]; [exact P2|]. cbn [map] in *. change (is_padded (lanes b) (last (snd p :: map snd sizes) size) (t_size t2)). rewrite (last_default (snd p :: map snd sizes) size k) by discriminate. exact P2.
Qed.
Lemma zeros_inv {A} (zero : A) b t : zeros zero b t -> lanes b <= t_size t -> inv zero b (t_size t) [] t.
Proof.
  intros (HO & HH & HZ) HS. pose proof (lanes_pos b). destruct HO as [_ _ HB _ _ _]. split; auto.
  intros d Hd. unfold zlen at 1. cbn [length Z.of_nat]. pose proof (Z.mod_pos_bound (0 - d) (t_size t) ltac:(lia)) as B. pose proof (HZ _ B) as G. unfold get in G.
  replace ((0 <=? (0 - d) mod t_size t) && ((0 - d) mod t_size t <? zlen (t_mem t))) with true in G by lia.
  unfold sample, zlen. cbn [length Z.of_nat]. replace (0 - d <? 0) with true by lia.
  destruct (nth (Z.to_nat ((0 - d) mod t_size t)) (t_mem t) None) as [v|] eqn:E; [|discriminate]. injection G as ->. rewrite <- E. apply nth_error_nth'. unfold zlen in HB. lia.
Qed.

(** C39. *)
Theorem convolution_is_fir : forall (A : Type) (zero one : A) (add mul sub : A -> A -> A) (opp : A -> A),
  ring_theory zero one add mul sub opp (@eq A) ->
  forall (b : build), b <> B_AVX ->
  forall (size : Z) (sizes : list (bool * Z)) (n : Z) (history : list (table A * list A * list A)),
  let ok k := 0 <= k /\ 4 * (k + 2 * lanes b) < 4294967296 in
  ok size -> Forall (fun p => ok (snd p)) sizes ->
  (* the ring is as long as the filter: the last size asked for, rounded up to whole vectors, is n *)
  is_padded (lanes b) (last (map snd sizes) size) n -> 0 < n ->
  (* each vector comes with the coefficient table of that moment, which holds n coefficients *)
  Forall (fun '(tbl, cs, x) => holds tbl cs /\ zlen cs = n /\ zlen x = lanes b) history ->
  exists t t', sConv_setup zero b size sizes = Ok t /\
    conv_run zero add mul b t (map (fun '(tbl, cs, x) => (tbl, x)) history) =
      Ok (t', map (fun j => map (fun l =>
                  fir zero add mul (nth j (map (fun '(tbl, cs, x) => cs) history) []) (concat (map snd history)) (Z.of_nat j * lanes b + Z.of_nat l))
                (seq 0 (Z.to_nat (lanes b)))) (seq 0 (length history))).
Proof.
  intros A zero one add mul sub opp Rth b Hb size sizes n history ok H1 H2 HP Hn HF. pose proof (lanes_pos b) as LP.
  destruct (setup_zeros zero b size sizes H1 H2) as (t & E & HZ & HP'). pose proof (pad_unique _ _ _ _ LP HP HP') as ->.
  assert (HD : (lanes b | t_size t)) by apply HP. assert (HN : lanes b <= t_size t) by (apply Z.divide_pos_le; assumption).
  assert (HD' : t_size t mod lanes b = 0) by (apply Z.mod_divide; [lia|exact HD]).
  destruct (run_ok zero one add mul sub opp Rth b (t_size t) Hb HN HD' history [] t (zeros_inv zero b t HZ HN)) as (t' & E').
  { eapply Forall_impl; [|exact HF]. intros [[tbl cs] x]. cbn [fst snd]. auto. }
  exists t, t'. split; [exact E|]. replace (map (fun '(tbl, cs, x) => (tbl, x)) history) with (map (fun p => (fst (fst p), snd p)) history) by (apply map_ext; intros [[tbl cs] x]; reflexivity).
  rewrite E'. do 2 f_equal. apply map_ext_in. intros j Hj. apply in_seq in Hj. apply map_ext. intros l. f_equal.
  symmetry. etransitivity; [exact (map_nth (fun '(tbl, cs, x) => cs) history (mkTable [] true 0 0 0 0, @nil A, @nil A) j)|]. destruct (nth j history _) as [[tbl cs] x]. reflexivity.
Qed.

Definition zcoeffs (b : build) (l : list Z) : table Z := match hTable_initWithData 0 (lanes b) (zlen l) l with Ok t => t | _ => mkTable [] true 0 0 0 0 end.
(** A size that the code's own comment allows ("m >= n"): four inputs, one coefficient; the fourth vector reads
    beyond the coefficients. *)
Theorem conv_longer_ring_refuted : exists b len cs blocks, Forall (fun x => zlen x = lanes b) blocks /\ holds (zcoeffs b cs) cs /\ zlen cs < len /\
  exists t, sConv_init 0 b len = Ok t /\ conv_run 0 Z.add Z.mul b t (map (fun x => (zcoeffs b cs, x)) blocks) = UB.
Proof.
  exists B_SSE, 16, [1; 2; 3; 4], [[1; 2; 3; 4]; [5; 6; 7; 8]; [1; 1; 1; 1]; [1; 1; 1; 1]]. split; [repeat constructor|]. split; [split; reflexivity|]. split; [vm_compute; reflexivity|].
  eexists. split; vm_compute; reflexivity.
Qed.
Definition got {X} (d : X) (x : outcome X) : X := match x with Ok y => y | _ => d end.
Definition no_table : table Z := mkTable [] true 0 0 0 0.
(** Another, larger coefficient table is selected while running: the assertion fails. *)
Theorem conv_larger_table_refuted : exists b, b <> B_AVX /\ exists cs cs' t t' t'', holds (zcoeffs b cs) cs /\ holds (zcoeffs b cs') cs' /\
  sConv_init 0 b (zlen cs) = Ok t /\ conv_run 0 Z.add Z.mul b t [(zcoeffs b cs, repeat 1 (Z.to_nat (lanes b)))] = Ok t' /\
  sConv_setTable 0 b true (fst t') (zlen cs') = Ok t'' /\ conv_run 0 Z.add Z.mul b t'' [(zcoeffs b cs', repeat 1 (Z.to_nat (lanes b)))] = AssertFail.
Proof.
  exists B_SSE. split; [discriminate|]. set (cs := [1; 2; 3; 4]). set (cs' := [1; 2; 3; 4; 5; 6; 7; 8]).
  let x := eval vm_compute in (got no_table (sConv_init 0 B_SSE (zlen cs))) in pose (t := x).
  let x := eval vm_compute in (got (no_table, []) (conv_run 0 Z.add Z.mul B_SSE t [(zcoeffs B_SSE cs, [1; 1; 1; 1])])) in pose (t' := x).
  let x := eval vm_compute in (got no_table (sConv_setTable 0 B_SSE true (fst t') (zlen cs'))) in pose (t'' := x).
  exists cs, cs', t, t', t''. repeat apply conj; (vm_compute; reflexivity).
Qed.
(** A smaller one: the ring shrinks, its head stays, and the next input is stored outside of it. *)
Theorem conv_smaller_table_refuted : exists b, b <> B_AVX /\ exists cs cs' t t' t'', holds (zcoeffs b cs) cs /\ holds (zcoeffs b cs') cs' /\
  sConv_init 0 b (zlen cs) = Ok t /\ conv_run 0 Z.add Z.mul b t (repeat (zcoeffs b cs, repeat 1 (Z.to_nat (lanes b))) 3) = Ok t' /\
  sConv_setTable 0 b true (fst t') (zlen cs') = Ok t'' /\ conv_run 0 Z.add Z.mul b t'' [(zcoeffs b cs', repeat 1 (Z.to_nat (lanes b)))] = UB.
Proof.
  exists B_SSE. split; [discriminate|]. set (cs := [1; 2; 3; 4; 5; 6; 7; 8; 9; 10; 11; 12; 13; 14; 15; 16]). set (cs' := [1; 2; 3; 4]).
  let x := eval vm_compute in (got no_table (sConv_init 0 B_SSE (zlen cs))) in pose (t := x).
  let x := eval vm_compute in (got (no_table, []) (conv_run 0 Z.add Z.mul B_SSE t (repeat (zcoeffs B_SSE cs, [1; 1; 1; 1]) 3))) in pose (t' := x).
  let x := eval vm_compute in (got no_table (sConv_setTable 0 B_SSE true (fst t') (zlen cs'))) in pose (t'' := x).
  exists cs, cs', t, t', t''. repeat apply conj; (vm_compute; reflexivity).
Qed.
(** AVX. *)
Theorem conv_avx_refuted : exists t, sConv_init 0 B_AVX 8 = Ok t /\
  holds (zcoeffs B_AVX [1; 2; 3; 4; 5; 6; 7; 8]) [1; 2; 3; 4; 5; 6; 7; 8] /\
  conv_run 0 Z.add Z.mul B_AVX t [(zcoeffs B_AVX [1; 2; 3; 4; 5; 6; 7; 8], [1; 1; 1; 1; 1; 1; 1; 1])] = AssertFail.
Proof. eexists. repeat split; vm_compute; reflexivity. Qed.

(** As libs/heavy/conv~.pd starts it: size 0, then the table's size from the loadbang. *)
Example some_convolution : exists t t', sConv_setup 0 B_NEON 0 [(true, 8)] = Ok t /\
  conv_run 0 Z.add Z.mul B_NEON t (map (fun x => (zcoeffs B_NEON [1; 2; 0; 0; 0; 0; 0; 3], x)) [[1; 0; 0; 0]; [0; 5; 0; 0]; [0; 0; 0; 0]; [0; 0; 0; 0]]) =
    Ok (t', [[1; 2; 0; 0]; [0; 5; 10; 3]; [0; 0; 0; 0]; [15; 0; 0; 0]]).
Proof.
  destruct (convolution_is_fir Z 0 1 Z.add Z.mul Z.sub Z.opp Zth B_NEON ltac:(discriminate) 0 [(true, 8)] 8
    (map (fun x => (zcoeffs B_NEON [1; 2; 0; 0; 0; 0; 0; 3], [1; 2; 0; 0; 0; 0; 0; 3], x)) [[1; 0; 0; 0]; [0; 5; 0; 0]; [0; 0; 0; 0]; [0; 0; 0; 0]])) as (t & t' & E & E').
  - cbn. lia.
  - constructor; [cbn; lia|constructor].
  - split; [exists 2; reflexivity|cbn; lia].
  - lia.
  - repeat (constructor; [repeat split|]). constructor.
  - exists t, t'. split; [exact E|]. cbn [map] in *. rewrite E'. reflexivity.
Qed.

Print Assumptions convolution_is_fir.
Print Assumptions conv_longer_ring_refuted.
Print Assumptions conv_larger_table_refuted.
Print Assumptions conv_smaller_table_refuted.
Print Assumptions conv_avx_refuted.
