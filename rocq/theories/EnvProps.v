(** The envelope follower [env~]: C40, C58. *)
From Verif Require Import EnvProofs EnvProofs2 EnvProofs3.
From Verif Require Export EnvModel EnvSpec.
From Coq Require Import Lia Ring_theory InitialRing.

(** The window and the period actually used. *)
Definition window_of (b : build) (ws : Z) : Z := rounded_up (lanes b) ws.
Definition period_of (b : build) (ws p : Z) : Z := if window_of b ws <? p then window_of b ws else rounded_up (lanes b) p.

Lemma inv_start {A : Type} (mul : A -> A -> A) b W P w m : lanes b <= P <= W -> zlen m = 2 * W -> inv mul b W P w [] (mkEnv W P 0 w m).
Proof.
  intros H Hm. pose proof (lanes_pos b). split; cbn [e_window e_period e_weights e_buffer e_num]; auto.
  - unfold zlen, level. cbn [length Z.of_nat]. replace (0 <? W) with true by lia. reflexivity.
Qed.

(** C40. *)
Theorem envelope_reports : forall (A : Type) (zero one : A) (add mul sub : A -> A -> A) (opp : A -> A),
  ring_theory zero one add mul sub opp (@eq A) ->
  forall (b : build) (hann : Z -> list A) (windowSize period : Z) (lenient : bool) (blocks : list (list A)),
  (forall n, zlen (hann n) = n \/ n < 0) -> windowSize <= 2 ^ 24 ->
  Forall (fun x => zlen x = lanes b) blocks ->
  let W := window_of b windowSize in let P := period_of b windowSize period in
  lenient = true \/ W <= 2 * P ->
  exists o o', sEnv_init b hann windowSize period = Ok o /\
    env_run zero add mul lenient b o blocks =
      Ok (o', map (fun j => report zero add mul W P (hann W) (concat blocks) (Z.of_nat (S j) * lanes b)) (seq 0 (length blocks))).
Proof.
  intros A zero one add mul sub opp Rth b hann ws p lenient blocks Hh Hws HF W P HO.
  destruct (init_ok b hann ws p ltac:(lia) Hh) as (W' & P' & m & E & Hm & HWP & MW & MP & Hw & HS & _).
  destruct (HS ltac:(lia)) as (EW & EP). assert (EP' : P' = P) by (rewrite EP; unfold P, period_of, window_of; rewrite EW; reflexivity).
  fold (window_of b ws) in EW. fold W in EW. clear HS EP. subst W' P'.
  destruct (run_ok zero one add mul sub opp Rth b W P (hann W) HWP MW MP Hw lenient HO blocks [] _ (inv_start mul b W P (hann W) m HWP Hm) HF) as (o' & E' & _).
  exists (mkEnv W P 0 (hann W) m), o'. split; [exact E|]. exact E'.
Qed.

(** C58: as soon as one window has been filled, the buffer is shifted with a memcpy between overlapping ranges. *)
Theorem envelope_overlap_refuted : forall (A : Type) (zero one : A) (add mul sub : A -> A -> A) (opp : A -> A),
  ring_theory zero one add mul sub opp (@eq A) ->
  forall (b : build) (hann : Z -> list A) (windowSize period : Z) (blocks : list (list A)),
  (forall n, zlen (hann n) = n \/ n < 0) -> windowSize <= 2 ^ 24 ->
  Forall (fun x => zlen x = lanes b) blocks ->
  2 * period_of b windowSize period < window_of b windowSize -> window_of b windowSize <= zlen (concat blocks) ->
  exists o, sEnv_init b hann windowSize period = Ok o /\ env_run zero add mul false b o blocks = UB.
Proof.
  intros A zero one add mul sub opp Rth b hann ws p blocks Hh Hws HF HO HL.
  destruct (init_ok b hann ws p ltac:(lia) Hh) as (W' & P' & m & E & Hm & HWP & MW & MP & Hw & HS & _).
  destruct (HS ltac:(lia)) as (EW & EP). assert (EP' : P' = period_of b ws p) by (rewrite EP; unfold period_of, window_of; rewrite EW; reflexivity).
  fold (window_of b ws) in EW. set (W := window_of b ws) in *. set (P := period_of b ws p) in *. clearbody W P. clear HS EP. subst W' P'.
  exists (mkEnv W P 0 (hann W) m). split; [exact E|]. pose proof (lanes_pos b).
  refine (run_ub zero one add mul sub opp Rth b W P (hann W) HWP MW MP Hw HO blocks [] _ (inv_start mul b W P (hann W) m HWP Hm) HF _ _); unfold zlen in *; cbn [length Z.of_nat]; lia.
Qed.

(** The property with every period fails: window 1024, period 256 (what [env~ 1024 256] asks for). *)
Example overlap_reached : forall b, 2 * period_of b 1024 256 < window_of b 1024.
Proof. intros []; vm_compute; reflexivity. Qed.

(** The default of [env~] (HIrEnvelope: window 1024, period 512) and others are inside the proved part. *)
Example default_covered : forall b, window_of b 1024 <= 2 * period_of b 1024 512.
Proof. intros []; vm_compute; discriminate. Qed.
Example odd_sizes : window_of B_SSE 10 = 12 /\ period_of B_SSE 10 7 = 8 /\ period_of B_SSE 10 100 = 12 /\ window_of B_AVX 3 = 8 /\ period_of B_AVX 20 1 = 8.
Proof. vm_compute. auto. Qed.
(** Window 2, period 1, without SIMD: a report after samples 2, 3, 4 of the weighted squares of the last two. *)
Definition two (n : Z) : list Z := map (fun k => Z.of_nat k + 1) (seq 0 (Z.to_nat n)).
Example some_reports : exists o o', sEnv_init B_NONE two 2 1 = Ok o /\ env_run 0 Z.add Z.mul false B_NONE o [[1]; [2]; [3]; [5]] = Ok (o', [None; Some 9; Some 22; Some 59]).
Proof.
  destruct (envelope_reports Z 0 1 Z.add Z.mul Z.sub Z.opp Zth B_NONE two 2 1 false [[1]; [2]; [3]; [5]]) as (o & o' & E & E').
  - intros n. unfold two, zlen. rewrite map_length, seq_length. lia.
  - lia.
  - repeat (constructor; [reflexivity|]). constructor.
  - right. vm_compute. discriminate.
  - exists o, o'. split; [exact E|]. rewrite E'. reflexivity.
Qed.

Print Assumptions envelope_reports.
Print Assumptions envelope_overlap_refuted.
