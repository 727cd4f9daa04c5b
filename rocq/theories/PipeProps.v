(** Property theorems C01, C02, C03 about the message pipe (HvLightPipe.c).

    Vocabulary: [run s ls] executes the scheduler choices [ls]; [Send r] asks the producer to
    send the byte record [r], [Prod]/[Cons] let the producer/consumer do its next memory access.
    [sent s]: records the producer has committed, oldest first; [recv s]: records handed to the
    consumer, oldest first; [refused s]: records for which the reservation returned NULL. *)
From Verif Require Import PipeModel PipeProofs PipeProofs2.

(** A record whose size is a positive multiple of four (and small enough for 32-bit sizes). *)
Definition word_record (r : list Z) : Prop :=
  0 < zlen r /\ zlen r mod 4 = 0 /\ zlen r + 8 < 4294967296.
Definition sends_word_records (ls : list label) : Prop :=
  Forall (fun l => match l with Send r => word_record r | _ => True end) ls.

(** C01: for every buffer size, every schedule and every sequence of word-sized records:
    no out-of-bounds access, no failed assertion; what was received is an initial segment of what
    was sent (order, multiplicity and every byte preserved); and if the consumer keeps going it
    receives everything that was sent. *)
Theorem pipe_fifo_lossless :
  forall junk n ls, 4 <= n < 4294967296 -> sends_word_records ls ->
  exists s0 s, hLp_init junk n = Ok s0 /\ run s0 ls = Ok s /\
    prefix (recv s) (sent s) /\
    exists k s', run s (repeat Cons k) = Ok s' /\ sent s' = sent s /\ recv s' = sent s.
Proof.
  intros junk n ls Hn Hls.
  destruct (init_inv junk n Hn) as (s0 & E0 & HI & _).
  destruct (run_inv ls s0 _ _ _ HI Hls) as (s & w & f & bk & E & HI').
  exists s0, s. split; [exact E0|]. split; [exact E|].
  split; [exact (inv_prefix _ _ _ _ HI')|].
  destruct (drain _ _ _ _ HI') as (j & s' & Ej & _ & _ & Hs & _ & _ & Hr).
  exists j, s'. split; [exact Ej|]. split; [exact Hs|congruence].
Qed.
Print Assumptions pipe_fifo_lossless.

(** C01, producer side: in every reachable state an idle producer that is asked to send a record
    finishes, and the record is then either committed or reported as refused, never both, and
    nothing is taken from or added to what the consumer has. *)
Theorem pipe_send_completes :
  forall junk n ls s0 s r, 4 <= n < 4294967296 -> sends_word_records ls -> word_record r ->
  hLp_init junk n = Ok s0 -> run s0 ls = Ok s -> pp s = P_idle ->
  exists j s', run s (Send r :: repeat Prod j) = Ok s' /\ pp s' = P_idle /\ recv s' = recv s /\
    ((sent s' = sent s ++ [r] /\ refused s' = refused s) \/
     (sent s' = sent s /\ refused s' = refused s ++ [r])).
Proof.
  intros junk n ls s0 s r Hn Hls Hr E0 E Hp.
  destruct (init_inv junk n Hn) as (s0' & E0' & HI & _). rewrite E0 in E0'; inversion E0'; subst s0'.
  destruct (run_inv ls s0 _ _ _ HI Hls) as (s1 & w & f & bk & E1 & HI'). rewrite E in E1; inversion E1; subst s1.
  destruct (finish_send _ _ _ _ r HI' Hp Hr) as (j & s' & Ej & H1 & H2 & _ & _ & H3).
  exists j, s'; auto.
Qed.
Print Assumptions pipe_send_completes.

(** The hypotheses are met by a non-trivial run: three records through a 32-byte pipe with a wrap. *)
Example pipe_example :
  exists s, run (match hLp_init junk0 32 with Ok s => s | _ => init1024 end)
      (send_all (rec 8 1) ++ send_all (rec 8 2) ++ take_one 8 ++ send_all (rec 4 3) ++ repeat Cons 60) = Ok s /\
    sends_word_records (send_all (rec 8 1) ++ send_all (rec 8 2) ++ take_one 8 ++ send_all (rec 4 3)) /\
    recv s = [rec 8 1; rec 8 2; rec 4 3].
Proof.
  eexists. split; [vm_compute; reflexivity|]. split; [|reflexivity].
  apply good_labels_b_ok; vm_compute; reflexivity.
Qed.

(** C02 is false: with record sizes that [sendSymbolToReceiver] produces, a run exists after which
    19 committed records are never received although the consumer keeps polling. *)
Theorem pipe_any_size_refuted :
  exists ls s, Forall (fun r => symbol_record_size (zlen r)) (sends ls) /\
    run init1024 ls = Ok s /\ pp s = P_idle /\ (length (recv s) < length (sent s))%nat /\
    forall k, run s (repeat Cons k) = Ok s.
Proof. exact odd_size_loss. Qed.
Print Assumptions pipe_any_size_refuted.

(** C02 is false, second witness: the 260-byte record that was sent arrives as 256 bytes. *)
Theorem pipe_any_size_corrupts_refuted :
  exists ls s, run init288 ls = Ok s /\ nth_error (sent s) 1 = Some (repeat 2 260)
             /\ nth_error (recv s) 1 = Some (repeat 2 256).
Proof. exists trunc_run. exact trunc_loss. Qed.
Print Assumptions pipe_any_size_corrupts_refuted.

(** C03: when the consumer has received everything and both are idle, a record that fits half
    the buffer is accepted. *)
Theorem pipe_drained_accepts :
  forall junk n ls s0 s r, 4 <= n < 4294967296 -> sends_word_records ls -> word_record r ->
  hLp_init junk n = Ok s0 -> run s0 ls = Ok s -> pp s = P_idle ->
  exists k s1, run s (repeat Cons k) = Ok s1 /\ recv s1 = sent s /\
   (2 * (zlen r + 8) <= n ->
    exists j s', run s1 (Send r :: repeat Prod j) = Ok s' /\ pp s' = P_idle /\ sent s' = sent s ++ [r]).
Proof.
  intros junk n ls s0 s r Hn Hls Hr E0 E Hp.
  destruct (init_inv junk n Hn) as (s0' & E0' & HI & _ & _ & _ & Hlen & _). rewrite E0 in E0'; inversion E0'; subst s0'.
  destruct (run_inv ls s0 _ _ _ HI Hls) as (s1 & w & f & bk & E1 & HI'). rewrite E in E1; inversion E1; subst s1.
  destruct (drain _ _ _ _ HI') as (j & s2 & Ej & HI2 & Hc & Hs & Hp2 & Hl & Hrc).
  exists j, s2. split; [exact Ej|]. split; [congruence|]. intros Hfit.
  assert (Hl0 : len s = n).
  { rewrite <- Hlen. exact (run_len _ _ _ E). }
  destruct (accept_drained s2 r HI2) as (i & s3 & E3 & Hp3 & Hs3 & _); try assumption; try congruence; try lia.
  exists i, s3. split; [exact E3|]. split; [exact Hp3|]. congruence.
Qed.
Print Assumptions pipe_drained_accepts.

(** C03, negative half: a drained, idle pipe can refuse a record that fits its buffer
    (n + 8 <= buffer length), leaving every field unchanged, hence for ever. *)
Theorem pipe_drained_accepts_all_refuted :
  exists ls s, sends_word_records ls /\ run init64 ls = Ok s /\ pp s = P_idle /\ cp s = C_idle /\ recv s = sent s /\
    exists r, word_record r /\ zlen r + 8 <= len s /\
    exists s', run s (Send r :: repeat Prod 2) = Ok s' /\
      refused s' = refused s ++ [r] /\ pp s' = P_idle /\
      rh s' = rh s /\ wh s' = wh s /\ rem s' = rem s /\ sent s' = sent s.
Proof.
  destruct half_refused as (s & H1 & H2 & H3 & H4 & H5 & H6).
  exists half_run, s. split.
  - apply good_labels_b_ok; vm_compute; reflexivity.
  - do 4 (split; [assumption|]). exists (rec 32 2).
    split; [apply good_b_ok; vm_compute; reflexivity|]. split; [exact H5|exact H6].
Qed.
Print Assumptions pipe_drained_accepts_all_refuted.
