(** Property theorems C266-C272 about the OWL generator. *)
From Verif Require Import OwlProofs.
From Coq Require Import String List QArith Lqa Lia Bool.
Import ListNotations.
Local Open Scope list_scope.
Open Scope Z_scope.

(** C266: the wrapper is generated iff every port with a parameter has a default and different limits. *)
Theorem owl_generated_iff : forall rs ss,
  renders (make_jdata rs ss) = true <->
  forall send p k lo hi d, In p (if send : bool then ss else rs) -> wired send p k lo hi d -> (exists v, d = Some v) /\ ~ (hi == lo)%Q.
Proof.
  intros rs ss. rewrite renders_iff. split.
  - intros H send p k lo hi d Hp W. apply (H (row_of send p k lo hi d)). apply in_jdata. exists p, k, lo, hi, d. split; [exact Hp|]. split; [exact W|reflexivity].
  - intros H w Hw. apply in_jdata in Hw. destruct Hw as (p & k & lo & hi & d & Hp & W & ->). exact (H _ p k lo hi d Hp W).
Qed.
Print Assumptions owl_generated_iff.
Example owl_generated_some : renders (make_jdata [with_key "freq" "A" 20 2000 440; mkPort (T "other") None] [with_key "level" "F" 0 1 (1#2)]) = true.
Proof. reflexivity. Qed.

(** C267 (refuted): a receiver Channel-k is connected to the parameter k.  It never is: no wrapper is generated. *)
Theorem channel_names_refuted : forall rs ss p k, In p rs -> p_range p = None -> p_name p = channel ++ k -> renders (make_jdata rs ss) = false.
Proof.
  intros rs ss p k Hp Hr Hn. destruct (renders (make_jdata rs ss)) eqn:E; [|reflexivity]. exfalso.
  pose proof (proj1 (owl_generated_iff rs ss) E false p k 0%Q 1%Q None Hp) as X. destruct X as [[v C] _]; [|discriminate].
  split; [intros _ s C; rewrite Hn in C; discriminate|]. right. split; [intros r k' C; rewrite Hr in C; discriminate|]. split; [discriminate|]. repeat split. exact Hn.
Qed.
Print Assumptions channel_names_refuted.
Example channel_names_some : renders (make_jdata [mkPort (T "Channel-A") None] []) = false.
Proof. reflexivity. Qed.

(** C268: before every block each receiver of a parameter gets the parameter's value, brought to its limits, once and in order. *)
Theorem owl_block_exact : forall rs ss value, keys_differ rs ss -> block_messages value rs (process_audio (make_jdata rs ss) value).
Proof. exact block. Qed.
Print Assumptions owl_block_exact.
Example owl_block_some : keys_differ [with_key "freq" "A" 20 2000 440; with_key "go" "Push" 0 1 0; with_key "q" "B" 0 10 1] [with_key "level" "F" 0 1 (1#2)]
  /\ map fst (process_audio (make_jdata [with_key "freq" "A" 20 2000 440; with_key "go" "Push" 0 1 0; with_key "q" "B" 0 10 1] [with_key "level" "F" 0 1 (1#2)]) (fun _ => 1%Q))
     = [hv_string_to_hash (T "freq"); hv_string_to_hash (T "q")].
Proof.
  split; [|reflexivity]. unfold keys_differ.
  change (map w_key _) with [T "A"; T "Push"; T "B"; T "F"]. repeat constructor; cbn [In]; intuition discriminate.
Qed.

(** C269: from 0 to 1 the values sent lie within the limits; the first value sent is the default (exact arithmetic). *)
Theorem owl_values_in_range : forall rs ss p k lo hi d, keys_differ rs ss -> renders (make_jdata rs ss) = true -> In p rs -> wired false p k lo hi d -> ~ button k ->
  exists v0 dv, d = Some dv /\ In (k, Some v0) (initial (make_jdata rs ss)) /\ (v0 * (hi - lo) + lo == dv)%Q /\
  ((lo < hi)%Q -> ((lo <= dv <= hi)%Q -> (0 <= v0 <= 1)%Q) /\ forall v, (0 <= v <= 1)%Q -> (lo <= v * (hi - lo) + lo <= hi)%Q).
Proof.
  intros rs ss p k lo hi d H R Hp W Nb. destruct (proj1 (owl_generated_iff rs ss) R false p k lo hi d Hp W) as [[dv ->] Ne].
  assert (Ne' : ~ (hi - lo == 0)%Q) by (intros C; apply Ne; lra).
  exists ((dv - lo) / (hi - lo))%Q, dv. split; [reflexivity|]. split; [|split].
  - unfold initial. rewrite (lines_eq _ _ _ H). apply in_map_iff. exists (row_of false p k lo hi (Some dv)). split.
    + cbn [w_key row_of]. f_equal. unfold scaled_default. cbn [w_def w_max w_min row_of]. destruct (Qeq_bool hi lo) eqn:E; [apply Qeq_bool_iff in E; contradiction|reflexivity].
    + apply filter_In. split; [apply in_jdata; exists p, k, lo, hi, (Some dv); split; [exact Hp|]; split; [exact W|reflexivity]|].
      cbn [w_button row_of]. destruct (is_button k) eqn:B; [apply is_button_iff in B; contradiction|reflexivity].
  - field. exact Ne'.
  - intros L. split.
    + intros [L1 L2]. split; [apply Qle_shift_div_l; lra|apply Qle_shift_div_r; lra].
    + intros v [V1 V2]. assert (A : (0 <= v * (hi - lo))%Q) by (apply Qmult_le_0_compat; lra).
      assert (B : (0 <= (1 - v) * (hi - lo))%Q) by (apply Qmult_le_0_compat; lra). split; [lra|].
      setoid_replace ((1 - v) * (hi - lo))%Q with (hi - (v * (hi - lo) + lo))%Q in B by ring. lra.
Qed.
Print Assumptions owl_values_in_range.

(** C270 (refuted): the same for ports that share a key.  An input A from 20 to 2000 beside an output A from 0 to 1 is sent numbers from 0 to 1;
    of two inputs A the first is never sent anything. *)
Theorem owl_shared_key_refuted :
  (exists rs ss v, renders (make_jdata rs ss) = true /\ In (with_key "freq" "A" 20 2000 440) rs /\
     process_audio (make_jdata rs ss) (fun _ => 1%Q) = [(hv_string_to_hash (T "freq"), v)] /\ (v == 1)%Q) /\
  (exists rs, renders (make_jdata rs []) = true /\ In (with_key "one" "A" 0 1 0) rs /\
     forall value, ~ In (hv_string_to_hash (T "one")) (map fst (process_audio (make_jdata rs []) value))).
Proof.
  split.
  - exists [with_key "freq" "A" 20 2000 440], [with_key "level" "A" 0 1 (1#2)]. eexists. split; [reflexivity|]. split; [left; reflexivity|]. split; [reflexivity|]. reflexivity.
  - exists [with_key "one" "A" 0 1 0; with_key "two" "A" 0 1 0]. split; [reflexivity|]. split; [left; reflexivity|]. intros value.
    change (map fst _) with [hv_string_to_hash (T "two"); hv_string_to_hash (T "two")]. vm_compute. intros [C | [C | []]]; discriminate.
Qed.
Print Assumptions owl_shared_key_refuted.

(** C271: a message of a sender with a parameter sets that parameter, brought back from its limits, or that button; nothing else. *)
Theorem owl_send_exact : forall rs ss x, keys_differ rs ss -> NoDup (send_cases (make_jdata rs ss)) ->
  (forall p k lo hi d, In p ss -> wired true p k lo hi d ->
     let v := ((x - lo) / (hi - lo))%Q in let r := send_callback (make_jdata rs ss) (hv_string_to_hash (p_name p)) x in
     (~ button k -> r = [SetParameter k v]) /\ (button k -> exists b, r = [SetButton k b] /\ (b = true <-> (1#2 < v)%Q))) /\
  (forall h, (forall p k lo hi d, In p ss -> wired true p k lo hi d -> hv_string_to_hash (p_name p) <> h) -> send_callback (make_jdata rs ss) h x = []).
Proof.
  intros rs ss x H C. rewrite (send_cases_eq _ H) in C. split.
  - intros p k lo hi d Hp W v r. subst r. set (w := row_of true p k lo hi d).
    assert (Hw : In w (filter w_send (make_jdata rs ss))).
    { apply filter_In. split; [|reflexivity]. apply in_jdata. exists p, k, lo, hi, d. split; [exact Hp|]. split; [exact W|reflexivity]. }
    rewrite (sent rs ss _ x H). change (hv_string_to_hash (p_name p)) with (w_hash w). rewrite (find_hash _ w C Hw). cbv zeta.
    unfold w. cbn [w_button w_key w_min w_max row_of]. fold v. split.
    + intros Nb. destruct (is_button k) eqn:B; [apply is_button_iff in B; contradiction|reflexivity].
    + intros Hb. apply is_button_iff in Hb. rewrite Hb. eexists. split; [reflexivity|]. destruct (Qle_bool v (1#2)) eqn:E; cbn [negb].
      * apply Qle_bool_iff in E. split; [discriminate|]. intros L. exfalso. lra.
      * split; [|reflexivity]. intros _. destruct (Qlt_le_dec (1#2) v) as [L|L]; [exact L|]. apply Qle_bool_iff in L. congruence.
  - intros h N. rewrite (sent rs ss h x H). destruct (find _ _) as [w|] eqn:F; [|reflexivity]. exfalso. apply find_some in F. destruct F as [Hw E].
    apply filter_In in Hw. destruct Hw as [Hw S]. apply in_jdata in Hw. rewrite S in Hw. destruct Hw as (p & k & lo & hi & d & Hp & W & ->).
    apply Z.eqb_eq in E. exact (N p k lo hi d Hp W E).
Qed.
Print Assumptions owl_send_exact.
Example owl_send_some : send_callback (make_jdata [] [with_key "level" "F" 0 10 (1#2); with_key "lamp" "Green" 0 1 0]) (hv_string_to_hash (T "lamp")) 1%Q = [SetButton (T "Green") true].
Proof. reflexivity. Qed.

(** C272: a button that is pressed or released sends its upper or lower limit to its receiver, unless the block's values are just being sent. *)
Theorem owl_buttons_exact : forall rs ss pressed p k lo hi d, keys_differ rs ss -> In p rs -> wired false p k lo hi d -> button k ->
  (exists v, button_changed (make_jdata rs ss) false pressed k = [(hv_string_to_hash (p_name p), v)] /\ (v == if pressed k then hi else lo)%Q).
Proof.
  intros rs ss pressed p k lo hi d H Hp W Hb. unfold button_changed. rewrite (lines_eq _ _ _ H).
  - set (w := row_of false p k lo hi d).
    assert (Hw : In w (filter (fun w => negb (w_send w) && w_button w) (make_jdata rs ss))).
    { apply filter_In. split; [apply in_jdata; exists p, k, lo, hi, d; split; [exact Hp|]; split; [exact W|reflexivity]|]. cbn. apply is_button_iff. exact Hb. }
    assert (ND : NoDup (map w_key (filter (fun w => negb (w_send w) && w_button w) (make_jdata rs ss)))).
    { revert H. unfold keys_differ. generalize (make_jdata rs ss). intros l. induction l as [|a l IH]; cbn [map filter]; intros H; [constructor|].
      apply NoDup_cons_iff in H. destruct H as [Ha H]. destruct (_ && _); [|exact (IH H)]. cbn [map]. constructor; [|exact (IH H)].
      intros X. apply Ha. apply in_map_iff in X. destruct X as (y & E & Hy). apply filter_In in Hy. rewrite <- E. apply in_map. exact (proj1 Hy). }
    revert Hw ND. generalize (filter (fun w => negb (w_send w) && w_button w) (make_jdata rs ss)). intros l Hw ND.
    induction l as [|a l IH]; [destruct Hw|]. cbn [map find fst]. cbn [map] in ND. apply NoDup_cons_iff in ND. destruct ND as [Ha ND].
    destruct (text_eqb_spec (w_key a) k) as [E | E].
    + assert (a = w) as ->. { destruct Hw as [Hw | Hw]; [exact Hw|]. exfalso. apply Ha. rewrite E. change k with (w_key w). apply in_map. exact Hw. }
      eexists. split; [reflexivity|]. unfold w. cbn [w_key w_max w_min row_of]. unfold b2q. destruct (pressed k); ring.
    + destruct Hw as [-> | Hw]; [exfalso; apply E; reflexivity|]. exact (IH Hw ND).
Qed.
Print Assumptions owl_buttons_exact.
Theorem owl_other_buttons : forall rs ss lock pressed bid, keys_differ rs ss ->
  (forall q k lo hi d, In q rs -> wired false q k lo hi d -> k <> bid) -> button_changed (make_jdata rs ss) lock pressed bid = [].
Proof.
  intros rs ss lock pressed bid H N. unfold button_changed. rewrite (lines_eq _ _ _ H). destruct lock; [reflexivity|].
  destruct (find _ _) as [c|] eqn:F; [|reflexivity]. exfalso. apply find_some in F. destruct F as [Hc E]. apply text_eqb_eq in E.
    apply in_map_iff in Hc. destruct Hc as (w & <- & Hw). cbn [fst] in E. apply filter_In in Hw. destruct Hw as [Hw S]. apply andb_true_iff in S. destruct S as [S _].
    apply negb_true_iff in S. apply in_jdata in Hw. rewrite S in Hw. destruct Hw as (q & k' & lo' & hi' & d' & Hq & Wq & ->). exact (N q k' lo' hi' d' Hq Wq E).
Qed.
Print Assumptions owl_other_buttons.
Example owl_buttons_some : button_changed (make_jdata [with_key "go" "Push" 0 1 0] []) false (fun _ => true) (T "Push") = [(hv_string_to_hash (T "go"), (1 * (1 - 0) + 0)%Q)].
Proof. reflexivity. Qed.
