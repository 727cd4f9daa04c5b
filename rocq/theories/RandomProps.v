(** C19: the random object. *)
From Verif Require Import RandomModel RandomProofs Float32Facts.
From Coq Require Import Reals Lra.
Local Open Scope Z_scope.

(** Whatever the seed and whatever happens on the inlets, every value sent is a number in [0,1). *)
Theorem random_in_range : forall seed ops s out,
  random_run (cRandom_init seed) ops = Ok (s, out) ->
  forall x, In x out -> is_finite x = true /\ (0 <= @B2R 24 128 x < 1)%R.
Proof. intros seed ops s out H x I. exact (run_outputs ops _ s out (init_range seed) H x I). Qed.

(** Every seed except -5 (the compiler picks any 32 bit integer): never the absorbing state... *)
Theorem random_never_stuck : forall seed n, int_min <= seed <= int_max -> seed <> -5 ->
  exists s out, random_run (cRandom_init seed) (repeat Bang n) = Ok (s, out) /\ s <> 0 /\ length out = n.
Proof.
  intros seed n H H5. rewrite run_bangs. eexists. eexists. split; [reflexivity|].
  split; [|rewrite map_length, seq_length; reflexivity].
  assert (N : cRandom_init seed mod 4294967291 <> 0).
  { unfold cRandom_init, int_min, int_max in *. destruct (Z.eqb_spec seed 0) as [E|E]; [discriminate|].
    unfold u32. rewrite (Z.mod_eq seed) by lia.
    assert (Q : seed / 4294967296 = if seed <? 0 then -1 else 0).
    { destruct (Z.ltb_spec seed 0); symmetry; [apply Z.div_unique with (seed + 4294967296)|apply Z.div_unique with seed]; lia. }
    rewrite Q. destruct (Z.ltb_spec seed 0).
    - replace (seed - 4294967296 * -1) with (seed + 4294967296) by lia.
      destruct (Z.ltb_spec (seed + 4294967296) 4294967291).
      + rewrite Z.mod_small by lia. lia.
      + assert (E1 : seed + 4294967296 = 1 * 4294967291 + (seed + 5)) by lia.
        rewrite E1, Z.add_comm, Z.mod_add by lia. rewrite Z.mod_small by lia. lia.
    - rewrite Z.mul_0_r, Z.sub_0_r, Z.mod_small by lia. lia. }
  intro E. apply (iter_nonzero n _ N). rewrite E. reflexivity.
Qed.
(** ... and from any reachable good state the sequence returns to it exactly every 2^32-6 bangs:
    the period is maximal. *)
Theorem random_full_period : forall s n, 0 < s < 4294967291 -> (0 < n)%nat ->
  (exists out, random_run s (repeat Bang n) = Ok (s, out)) <-> (4294967290 | Z.of_nat n).
Proof.
  intros s n Hs Hn. rewrite run_bangs, <- (period_exact s n Hs Hn). split.
  - intros [out E]. injection E as E _. exact E.
  - intro E. rewrite E. eexists. reflexivity.
Qed.
Example random_hyps : -7 <> -5 /\ cRandom_init (-7) = 4294967289 /\ 0 < cRandom_init (-7) < 4294967291.
Proof. vm_compute. repeat split; discriminate. Qed.
Example random_first : random_next 1 = 279470273 /\ random_next (random_next 1) = 1196210100.
Proof. vm_compute. split; reflexivity. Qed.

(** The seed -5, which the compiler may pick, makes the object output zero for ever; so does a
    seed message 0; and a negative seed message is an undefined conversion. *)
Theorem random_seed_stuck_refuted : forall n, (0 < n)%nat ->
  exists out, random_run (cRandom_init (-5)) (repeat Bang n) = Ok (0, out)
    /\ forall x, In x out -> x = fzero.
Proof.
  intros n Hn. rewrite run_bangs, iter_zero by (auto; reflexivity). eexists. split; [reflexivity|].
  intros x I. apply in_map_iff in I. destruct I as (k & E & K). apply in_seq in K.
  rewrite iter_zero in E by (lia || reflexivity). subst x. vm_compute. reflexivity.
Qed.
Theorem random_reseed_zero_refuted : forall s n, (0 < n)%nat ->
  exists out, random_run s (Seed fzero :: repeat Bang n) = Ok (0, out).
Proof.
  intros s n Hn. cbn [random_run cRandom_onMessage]. change (to_u32 fzero) with (Ok 0). cbn [obind].
  rewrite run_bangs. rewrite iter_zero by (auto; reflexivity). eexists. reflexivity.
Qed.
Theorem random_reseed_negative_refuted : forall s, random_run s [Seed (of_int (-1))] = UB.
Proof. intro s. vm_compute. reflexivity. Qed.

Print Assumptions random_in_range.
Print Assumptions random_never_stuck.
Print Assumptions random_full_period.
Print Assumptions random_seed_stuck_refuted.
Print Assumptions random_reseed_zero_refuted.
Print Assumptions random_reseed_negative_refuted.
