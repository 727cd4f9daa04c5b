(** Splitting, session order and clock wrap. *)
From Verif Require Import ProcessModel ProcessSpec ProcessProofs.
From Coq Require Import Permutation Sorted.
Require Import ZifyBool.

Section Proofs.
Context {P M : Type}.
Variable handle : P -> pentry M -> P * list (action M).
Variable dsp : P -> P.
Variable recv : Z -> list Z.
Variable bang : M.
Variable N : Z.

(** The patch never sees the incoming queue. *)
Definition set_inq (s : pstate P M) q : pstate P M := mkPS (s_clock s) (s_pend s) (s_next s) q (s_patch s).
Definition map_inq (r : option (pstate P M * list (event M))) q :=
  match r with None => None | Some (s, e) => Some (set_inq s q, e) end.

Lemma do_actions_inq l : forall s q,
  do_actions (set_inq s q) l = (set_inq (fst (do_actions s l)) q, snd (do_actions s l)).
Proof.
  induction l as [|a l IH]; intros s q; cbn [do_actions]; [reflexivity|].
  assert (H : do_action (set_inq s q) a = (set_inq (fst (do_action s a)) q, snd (do_action s a))) by (destruct a; reflexivity).
  rewrite H. destruct (do_action s a) as [s1 e1]. cbn [fst snd]. rewrite IH.
  destruct (do_actions s1 l) as [s2 e2]. reflexivity.
Qed.

Lemma run_before_inq fuel : forall s q lim,
  run_before handle fuel (set_inq s q) lim = map_inq (run_before handle fuel s lim) q.
Proof.
  induction fuel as [|fuel IH]; intros s q lim; cbn [run_before]; change (s_pend (set_inq s q)) with (s_pend s);
  destruct (s_pend s) as [|e rest] eqn:E; try reflexivity.
  - destruct (p_ts e <? lim); reflexivity.
  - destruct (p_ts e <? lim); [|reflexivity]. change (s_patch (set_inq s q)) with (s_patch s).
    destruct (handle (s_patch s) e) as [p' acts].
    change (set_patch (set_inq s q) p') with (set_inq (set_patch s p') q). rewrite do_actions_inq.
    destruct (do_actions (set_patch s p') acts) as [s1 e1]. cbn [fst snd].
    change (set_pend (set_inq s1 q) (tl (s_pend (set_inq s1 q)))) with (set_inq (set_pend s1 (tl (s_pend s1))) q).
    rewrite IH. destruct (run_before handle fuel (set_pend s1 (tl (s_pend s1))) lim) as [[s3 e3]|]; reflexivity.
Qed.

Lemma run_blocks_inq fuel k : forall s q,
  run_blocks handle dsp N fuel k (set_inq s q) = map_inq (run_blocks handle dsp N fuel k s) q.
Proof.
  induction k as [|k IH]; intros s q; cbn [run_blocks]; [reflexivity|].
  change (s_clock (set_inq s q)) with (s_clock s). rewrite run_before_inq.
  destruct (run_before handle fuel s (u32 (s_clock s + N))) as [[s1 e1]|]; [|reflexivity]. cbn [map_inq].
  change (set_clock (set_patch (set_inq s1 q) (dsp (s_patch (set_inq s1 q)))) (u32 (s_clock s + N)))
    with (set_inq (set_clock (set_patch s1 (dsp (s_patch s1))) (u32 (s_clock s + N))) q).
  rewrite IH. destruct (run_blocks handle dsp N fuel k _) as [[s3 e3]|]; reflexivity.
Qed.

Lemma run_blocks_keep_inq fuel k s s' e :
  run_blocks handle dsp N fuel k s = Some (s', e) -> s_inq s' = s_inq s.
Proof.
  intros H. assert (G : set_inq s (s_inq s) = s) by (destruct s; reflexivity).
  pose proof (run_blocks_inq fuel k s (s_inq s)) as R. rewrite G, H in R. cbn [map_inq] in R.
  injection R as R. rewrite R. reflexivity.
Qed.

Lemma drain_nothing l : forall s, Forall (fun r => recv (fst (fst r)) = []) l ->
  drain_inq recv s l = (set_inq s [], []).
Proof.
  induction l as [|[[h ts] m] l IH]; intros s Hf; cbn [drain_inq]; [reflexivity|].
  inversion Hf as [|? ? Hh Hl]; subst. cbn [fst] in Hh. unfold schedule_for_receiver. rewrite Hh. cbn [map do_actions].
  rewrite IH by exact Hl. reflexivity.
Qed.

Lemma drain_inq_empty l : forall s : pstate P M, s_inq (fst (drain_inq recv s l)) = [].
Proof.
  induction l as [|r l IH]; intros s; cbn [drain_inq]; [reflexivity|].
  destruct (schedule_for_receiver recv s r) as [s1 e1]. specialize (IH s1).
  destruct (drain_inq recv s1 l). exact IH.
Qed.

Lemma observe_map_inq r q : observe (map_inq r q) = observe r.
Proof. destruct r as [[s e]|]; reflexivity. Qed.

Lemma process_split_aux fuel s a b : 0 < N -> 0 <= a -> 0 <= b -> a mod N = 0 -> recv HV_BANG = [] ->
  observe (process handle dsp recv bang N fuel s (a + b)) = observe (session handle dsp recv bang N fuel s [HRender a; HRender b]).
Proof.
  intros HN Ha Hb Hm Hr. cbn [session]. unfold process.
  pose proof (drain_inq_empty (s_inq s) s) as Hq.
  destruct (drain_inq recv s (s_inq s)) as [s1 e1]. cbn [fst] in Hq.
  assert (Hdiv : Z.to_nat ((a + b) / N) = (Z.to_nat (a / N) + Z.to_nat (b / N))%nat).
  { rewrite <- Z2Nat.inj_add by (apply Z.div_pos; lia). f_equal.
    rewrite (Z.div_mod a N) at 1 by lia. rewrite Hm, Z.add_0_r, Z.mul_comm, Z.div_add_l by lia. reflexivity. }
  rewrite Hdiv, run_blocks_add.
  set (s2 := host_send s1 HV_BANG 0 bang).
  destruct (run_blocks handle dsp N fuel (Z.to_nat (a / N)) s2) as [[s3 e3]|] eqn:E3; [|reflexivity].
  pose proof (run_blocks_keep_inq _ _ _ _ _ E3) as Hi3.
  assert (Hi2 : s_inq s3 = [(HV_BANG, u32 (s_clock s1 + 0), bang)]) by (rewrite Hi3; cbn; rewrite Hq; reflexivity).
  rewrite Hi2, drain_nothing by (constructor; [exact Hr|constructor]).
  change (host_send (set_inq s3 []) HV_BANG 0 bang) with (set_inq s3 [(HV_BANG, u32 (s_clock s3 + 0), bang)]).
  rewrite run_blocks_inq.
  destruct (run_blocks handle dsp N fuel (Z.to_nat (b / N)) s3) as [[s4 e4]|]; [|reflexivity].
  cbn [map_inq observe set_inq s_clock s_pend s_next s_patch app]. rewrite app_nil_r, !app_assoc. reflexivity.
Qed.

(** Control-only patches. *)
Lemma run_before_mono_fuel f1 : forall f2 s lim r, (f1 <= f2)%nat ->
  run_before handle f1 s lim = Some r -> run_before handle f2 s lim = Some r.
Proof.
  induction f1 as [|f1 IH]; intros f2 s lim r Hf H; destruct f2 as [|f2]; try lia; cbn [run_before] in *;
  destruct (s_pend s) as [|e rest]; try exact H; destruct (p_ts e <? lim); try exact H; try discriminate.
  destruct (handle (s_patch s) e) as [p' acts]. destruct (do_actions (set_patch s p') acts) as [s1 e1].
  destruct (run_before handle f1 _ lim) as [[s3 e3]|] eqn:E; [|discriminate].
  rewrite (IH f2 _ _ _ ltac:(lia) E). exact H.
Qed.

Lemma run_before_split f1 : forall f2 s l1 l2 s1 e1 s2 e2, l1 <= l2 ->
  run_before handle f1 s l1 = Some (s1, e1) -> run_before handle f2 s1 l2 = Some (s2, e2) ->
  run_before handle (f1 + f2) s l2 = Some (s2, e1 ++ e2).
Proof.
  induction f1 as [|f1 IH]; intros f2 s l1 l2 s1 e1 s2 e2 Hl H1 H2.
  - cbn [run_before] in H1. cbn [Nat.add]. destruct (s_pend s) as [|e rest] eqn:E.
    + injection H1 as <- <-. exact H2.
    + destruct (p_ts e <? l1); [discriminate|]. injection H1 as <- <-. exact H2.
  - cbn [run_before] in H1. destruct (s_pend s) as [|e rest] eqn:E.
    + injection H1 as <- <-. apply run_before_mono_fuel with f2; [lia|exact H2].
    + destruct (Z.ltb_spec (p_ts e) l1) as [Hlt|Hge].
      * cbn [Nat.add run_before]. rewrite E. destruct (Z.ltb_spec (p_ts e) l2); [|lia].
        destruct (handle (s_patch s) e) as [p' acts]. destruct (do_actions (set_patch s p') acts) as [s4 e4].
        destruct (run_before handle f1 _ l1) as [[s5 e5]|] eqn:E5; [|discriminate]. injection H1 as <- <-.
        rewrite (IH f2 _ l1 l2 _ _ _ _ Hl E5 H2). cbn [app]. rewrite !app_assoc. reflexivity.
      * injection H1 as <- <-. apply run_before_mono_fuel with f2; [lia|exact H2].
Qed.

Lemma drain_clock l : forall s : pstate P M, s_clock (fst (drain_inq recv s l)) = s_clock s.
Proof.
  induction l as [|[[h ts] m] l IH]; intros s; cbn [drain_inq]; [reflexivity|]. unfold schedule_for_receiver.
  assert (G : forall ds (s : pstate P M), s_clock (fst (do_actions s (map (fun d => ASched ts d m) ds))) = s_clock s).
  { clear. induction ds as [|d ds IH]; intros s; cbn [map do_actions]; [reflexivity|]. cbn [do_action schedule].
    specialize (IH (mkPS (s_clock s) (insert_by_ts (mkPE ts (s_next s) d m) (s_pend s)) (s_next s + 1) (s_inq s) (s_patch s))).
    destruct (do_actions _ _). cbn [fst s_clock] in *. exact IH. }
  specialize (G (recv h) s). destruct (do_actions s _) as [s1 e1]. cbn [fst] in G.
  specialize (IH s1). destruct (drain_inq recv s1 l). cbn [fst] in *. congruence.
Qed.

Lemma do_actions_clock l : forall s : pstate P M, s_clock (fst (do_actions s l)) = s_clock s.
Proof.
  induction l as [|a l IH]; intros s; cbn [do_actions]; [reflexivity|].
  assert (H : s_clock (fst (do_action s a)) = s_clock s) by (destruct a; reflexivity).
  destruct (do_action s a) as [s1 e1]. specialize (IH s1). destruct (do_actions s1 l). cbn [fst] in *. congruence.
Qed.

Lemma run_before_clock fuel : forall s lim s' e,
  run_before handle fuel s lim = Some (s', e) -> s_clock s' = s_clock s.
Proof.
  induction fuel as [|fuel IH]; intros s lim s' ev H; cbn [run_before] in H;
  destruct (s_pend s) as [|e rest]; try (injection H as <- <-; reflexivity).
  - destruct (p_ts e <? lim); [discriminate|]. injection H as <- <-; reflexivity.
  - destruct (p_ts e <? lim); [|injection H as <- <-; reflexivity].
    destruct (handle (s_patch s) e) as [p' acts]. pose proof (do_actions_clock acts (set_patch s p')) as Hc.
    destruct (do_actions (set_patch s p') acts) as [s1 e1]. cbn [fst] in Hc.
    destruct (run_before handle fuel (set_pend s1 (tl (s_pend s1))) lim) as [[s3 e3]|] eqn:E; [|discriminate].
    injection H as <- <-. rewrite (IH _ _ _ _ E). exact Hc.
Qed.

Lemma run_before_clock_irrel fuel : forall s t lim,
  run_before handle fuel (set_clock s t) lim =
  match run_before handle fuel s lim with None => None | Some (s', e) => Some (set_clock s' t, e) end.
Proof.
  assert (DA : forall l (s : pstate P M) t, do_actions (set_clock s t) l = (set_clock (fst (do_actions s l)) t, snd (do_actions s l))).
  { induction l as [|a l IH]; intros s t; cbn [do_actions]; [reflexivity|].
    assert (H : do_action (set_clock s t) a = (set_clock (fst (do_action s a)) t, snd (do_action s a))) by (destruct a; reflexivity).
    rewrite H. destruct (do_action s a) as [s1 e1]. cbn [fst snd]. rewrite IH.
    destruct (do_actions s1 l) as [s2 e2]. reflexivity. }
  induction fuel as [|fuel IH]; intros s q lim; cbn [run_before]; change (s_pend (set_clock s q)) with (s_pend s);
  destruct (s_pend s) as [|e rest] eqn:E; try reflexivity.
  - destruct (p_ts e <? lim); reflexivity.
  - destruct (p_ts e <? lim); [|reflexivity]. change (s_patch (set_clock s q)) with (s_patch s).
    destruct (handle (s_patch s) e) as [p' acts].
    change (set_patch (set_clock s q) p') with (set_clock (set_patch s p') q). rewrite DA.
    destruct (do_actions (set_patch s p') acts) as [s1 e1]. cbn [fst snd].
    change (set_pend (set_clock s1 q) (tl (s_pend (set_clock s1 q)))) with (set_clock (set_pend s1 (tl (s_pend s1))) q).
    rewrite IH. destruct (run_before handle fuel (set_pend s1 (tl (s_pend s1))) lim) as [[s3 e3]|]; reflexivity.
Qed.

Lemma process_nodsp_split_aux f1 f2 s a b s1 e1 s2 e2 :
  0 <= a -> 0 <= b -> 0 <= s_clock s -> s_clock s + a + b < 4294967296 -> recv HV_BANG = [] ->
  process_nodsp handle recv bang f1 s a = Some (s1, e1) ->
  process_nodsp handle recv bang f2 s1 b = Some (s2, e2) ->
  exists s', process_nodsp handle recv bang (f1 + f2) s (a + b) = Some (s', e1 ++ e2) /\
  s_clock s' = s_clock s2 /\ s_pend s' = s_pend s2 /\ s_next s' = s_next s2 /\ s_patch s' = s_patch s2.
Proof.
  intros Ha Hb H0 Hl Hr H1 H2. unfold process_nodsp in *.
  pose proof (drain_inq_empty (s_inq s) s) as Hq. pose proof (drain_clock (s_inq s) s) as Hc.
  destruct (drain_inq recv s (s_inq s)) as [s3 e3]. cbn [fst] in Hq, Hc.
  set (s4 := host_send s3 HV_BANG 0 bang) in *.
  assert (Hc4 : s_clock s4 = s_clock s) by exact Hc.
  assert (Hu1 : u32 (s_clock s4 + a) = s_clock s + a) by (rewrite Hc4; unfold u32; apply Z.mod_small; lia).
  assert (Hu2 : u32 (s_clock s4 + (a + b)) = s_clock s + a + b) by (rewrite Hc4; unfold u32; rewrite Z.mod_small; lia).
  rewrite Hu1 in H1. rewrite Hu2.
  destruct (run_before handle f1 s4 (s_clock s + a)) as [[s5 e5]|] eqn:E5; [|discriminate].
  injection H1 as <- <-.
  assert (Hi5 : s_inq s5 = s_inq s4).
  { pose proof (run_before_inq f1 s4 (s_inq s4) (s_clock s + a)) as R.
    replace (set_inq s4 (s_inq s4)) with s4 in R by (destruct s4; reflexivity). rewrite E5 in R. cbn [map_inq] in R.
    injection R as R. rewrite R. reflexivity. }
  change (s_inq (set_clock s5 (s_clock s + a))) with (s_inq s5) in H2. rewrite Hi5 in H2.
  change (s_inq s4) with (s_inq s3 ++ [(HV_BANG, u32 (s_clock s3 + 0), bang)]) in H2. rewrite Hq in H2. cbn [app] in H2.
  rewrite drain_nothing in H2 by (constructor; [exact Hr|constructor]).
  set (q := [(HV_BANG, u32 (s_clock s + a + 0), bang)]).
  change (host_send (set_inq (set_clock s5 (s_clock s + a)) []) HV_BANG 0 bang) with (set_inq (set_clock s5 (s_clock s + a)) q) in H2.
  change (s_clock (set_inq (set_clock s5 (s_clock s + a)) q)) with (s_clock s + a) in H2.
  replace (u32 (s_clock s + a + b)) with (s_clock s + a + b) in H2 by (unfold u32; rewrite Z.mod_small; lia).
  rewrite run_before_inq, run_before_clock_irrel in H2.
  destruct (run_before handle f2 s5 (s_clock s + a + b)) as [[s6 e6]|] eqn:E6; [|discriminate].
  cbn [map_inq] in H2. injection H2 as <- <-.
  rewrite (run_before_split f1 f2 s4 (s_clock s + a) (s_clock s + a + b) s5 e5 s6 e6) by (lia || assumption).
  eexists. split; [rewrite <- app_assoc; reflexivity|]. repeat split.
Qed.

(** Reaching a far time with nothing pending. *)
Lemma run_before_none fuel s lim : Forall (fun e => lim <= p_ts e) (s_pend s) ->
  run_before handle fuel s lim = Some (s, []).
Proof.
  intros Hf. destruct fuel; cbn [run_before]; destruct (s_pend s) as [|e rest]; try reflexivity;
  inversion Hf; subst; destruct (Z.ltb_spec (p_ts e) lim); try lia; reflexivity.
Qed.

Lemma run_blocks_none fuel k : forall s, 0 < N -> 0 <= s_clock s -> s_clock s + N * Z.of_nat k < 4294967296 ->
  Forall (fun e => s_clock s + N * Z.of_nat k <= p_ts e) (s_pend s) ->
  exists s' ev, run_blocks handle dsp N fuel k s = Some (s', ev) /\
    s_clock s' = s_clock s + N * Z.of_nat k /\ s_pend s' = s_pend s /\ s_next s' = s_next s /\
    s_inq s' = s_inq s /\ delivered ev = [].
Proof.
  induction k as [|k IH]; intros s HN H0 Hlim Hf; cbn [run_blocks].
  - exists s, []. repeat split; try reflexivity. lia.
  - assert (Hu : u32 (s_clock s + N) = s_clock s + N) by (unfold u32; apply Z.mod_small; nia).
    rewrite Hu, run_before_none.
    2:{ eapply Forall_impl; [|exact Hf]. cbn; intros; nia. }
    set (s2 := set_clock (set_patch s (dsp (s_patch s))) (s_clock s + N)).
    destruct (IH s2) as (s3 & e3 & R & R1 & R2 & R3 & R4 & R5); [exact HN|cbn; lia|cbn; nia| |].
    { change (s_pend s2) with (s_pend s). eapply Forall_impl; [|exact Hf]. cbn; intros; nia. }
    rewrite R. exists s3, ([] ++ EBlock (s_clock s) :: e3). split; [reflexivity|].
    split; [rewrite R1; cbn; nia|]. split; [exact R2|]. split; [exact R3|]. split; [exact R4|]. cbn. exact R5.
Qed.

Lemma process_none fuel s n : 0 < N -> 0 <= n -> 0 <= s_clock s -> s_clock s + n < 4294967296 ->
  Forall (fun e => s_clock s + n <= p_ts e) (s_pend s) ->
  Forall (fun r => recv (fst (fst r)) = []) (s_inq s) -> n mod N = 0 ->
  exists s' ev, process handle dsp recv bang N fuel s n = Some (s', ev) /\
    s_clock s' = s_clock s + n /\ s_pend s' = s_pend s /\ s_next s' = s_next s /\
    s_inq s' = [(HV_BANG, u32 (s_clock s + 0), bang)] /\ delivered ev = [].
Proof.
  intros HN Hn H0 Hl Hf Hi Hm. unfold process. rewrite drain_nothing by exact Hi.
  assert (Hq : N * Z.of_nat (Z.to_nat (n / N)) = n).
  { rewrite Z2Nat.id by (apply Z.div_pos; lia). pose proof (Z.div_mod n N). lia. }
  destruct (run_blocks_none fuel (Z.to_nat (n / N)) (host_send (set_inq s []) HV_BANG 0 bang)) as (s' & ev & R & R1 & R2 & R3 & R4 & R5);
    [exact HN|exact H0|rewrite Hq; exact Hl| |].
  { eapply Forall_impl; [|exact Hf]. cbn [set_inq host_send s_clock s_pend]. intros. rewrite Hq. assumption. }
  rewrite R. exists s', ([] ++ ev). split; [reflexivity|]. split; [rewrite R1, Hq; reflexivity|].
  split; [exact R2|]. split; [exact R3|]. split; [exact R4|]. exact R5.
Qed.
End Proofs.


(** Deliveries of a whole session are in order. *)
Section Session.
Context {P M : Type}.
Variable handle : P -> pentry M -> P * list (action M).
Variable dsp : P -> P.
Variable recv : Z -> list Z.
Variable bang : M.
Variable N : Z.
Hypothesis Hcausal : causal handle.
Hypothesis HN : 0 < N.
Hypothesis Hbang : recv HV_BANG = [].

Definition low (s : pstate P M) : Prop :=
  Forall (fun e => s_clock s <= p_ts e) (s_pend s) /\
  Forall (fun r => recv (fst (fst r)) = [] \/ s_clock s <= snd (fst r)) (s_inq s).

Lemma drain_low s : SI s -> low s -> let (s', ev) := drain_inq recv s (s_inq s) in
  Forall (fun e => s_clock s <= p_ts e) (s_pend s').
Proof.
  intros HI (L1 & L2). pose proof (drain_inq_spec recv N (s_inq s) s HI) as H.
  destruct (drain_inq recv s (s_inq s)) as [s' ev]. destruct H as (_ & _ & _ & Pm & _ & _ & _ & Hs).
  eapply (Permutation_Forall Pm). apply Forall_app. split; [exact L1|].
  apply Forall_forall. intros e He.
  assert (Hin : In (p_ts e, p_dest e, p_msg e) (map (fun e => (p_ts e, p_dest e, p_msg e)) (scheduled ev)))
    by (apply (in_map (fun e => (p_ts e, p_dest e, p_msg e))); exact He).
  rewrite Hs in Hin. apply in_flat_map in Hin. destruct Hin as ([[h t] m] & Hr & Hd).
  apply in_map_iff in Hd. destruct Hd as (d & Heq & Hdin). cbn [fst snd] in Heq, Hdin. injection Heq as Ht _ _.
  rewrite Forall_forall in L2. specialize (L2 _ Hr). cbn [fst snd] in L2.
  destruct L2 as [L2|L2]; [rewrite L2 in Hdin; destruct Hdin|lia].
Qed.

Lemma process_low fuel s n s' ev : SI s -> low s -> 0 <= s_clock s -> 0 <= n -> s_clock s + n < 4294967296 ->
  process handle dsp recv bang N fuel s n = Some (s', ev) ->
  SI s' /\ low s' /\ s_clock s <= s_clock s' <= s_clock s + n /\ StronglySorted due_before (delivered ev) /\
  Forall (fun e => s_clock s <= p_ts e) (delivered ev) /\ Forall (fun e => p_ts e < s_clock s') (delivered ev).
Proof.
  intros HI HL H0 Hn Hlim H. unfold process in H.
  pose proof (drain_inq_spec recv N (s_inq s) s HI) as HD. pose proof (drain_low s HI HL) as HDL.
  destruct (drain_inq recv s (s_inq s)) as [s1 ev1].
  destruct HD as (HI1 & (Q1 & _) & _ & _ & Hc1 & _ & Hi1 & _).
  destruct (run_blocks handle dsp N fuel (Z.to_nat (n / N)) (host_send s1 HV_BANG 0 bang)) as [[s3 ev3]|] eqn:E; [|discriminate].
  injection H as <- <-.
  assert (Hq : 0 <= n / N) by (apply Z.div_pos; lia).
  assert (Hmul : N * (n / N) <= n) by (apply Z.mul_div_le; lia).
  assert (Hz : Z.of_nat (Z.to_nat (n / N)) = n / N) by lia.
  destruct (run_blocks_spec handle dsp recv N Hcausal HN fuel (Z.to_nat (n / N)) _ _ _
             (host_send_si s1 HV_BANG 0 bang HI1) ltac:(cbn; lia) ltac:(cbn; rewrite Hz; lia) E)
    as [R1 R2 R3 R4 R5 R6 R7 R8 R9 R10]. rewrite Hz in R6. cbn [host_send s_clock s_pend s_inq] in *.
  rewrite Hi1 in R7. cbn [app] in R7.
  split; [exact R1|]. split; [|split; [nia|]].
  - split; [|rewrite R7; constructor; [left; exact Hbang|constructor]].
    destruct R3 as [R3|R3]; [exact R3|]. rewrite R3 in E. cbn [run_blocks] in E. injection E as <- <-.
    cbn [host_send s_clock s_pend]. rewrite Hc1. exact HDL.
  - rewrite del_app, Q1. cbn [app]. split; [exact R2|]. split; [apply R9; exact HDL|exact R8].
Qed.

Lemma frames_nonneg L (ops : list (@host_op M)) : Forall (fits L) ops -> 0 <= frames ops.
Proof. induction 1 as [|[h d m|n] l Hx Hl IH]; cbn [frames fits] in *; lia. Qed.

Lemma session_sorted fuel L ops : forall s s' ev, SI s -> low s -> 0 <= s_clock s ->
  Forall (fits L) ops -> s_clock s + frames ops <= L -> L < 4294967296 ->
  session handle dsp recv bang N fuel s ops = Some (s', ev) ->
  StronglySorted due_before (delivered ev) /\ Forall (fun e => s_clock s <= p_ts e) (delivered ev).
Proof.
  induction ops as [|o ops IH]; intros s s' ev HI HL H0 Hf Hfr HLim H; cbn [session] in H.
  - injection H as <- <-. split; constructor.
  - inversion Hf as [|? ? Ho Hf']; subst. pose proof (frames_nonneg L ops Hf') as Hfn. destruct o as [h d m|n]; cbn [frames fits] in *.
    + apply (IH (host_send s h d m) s' ev); try assumption.
      * apply host_send_si; exact HI.
      * destruct HL as (L1 & L2). split; [exact L1|]. cbn [host_send s_inq s_clock]. apply Forall_app. split; [exact L2|].
        constructor; [|constructor]. right. cbn [fst snd]. unfold u32. rewrite Z.mod_small by lia. lia.
    + destruct (process handle dsp recv bang N fuel s n) as [[s1 ev1]|] eqn:E; [|discriminate].
      destruct (session handle dsp recv bang N fuel s1 ops) as [[s2 ev2]|] eqn:E2; [|discriminate].
      injection H as <- <-.
      destruct (process_low fuel s n s1 ev1 HI HL H0 Ho ltac:(lia) E) as (A1 & A2 & A3 & A4 & A5 & A6).
      destruct (IH s1 s2 ev2 A1 A2 ltac:(lia) Hf' ltac:(lia) HLim E2) as (B1 & B2).
      rewrite del_app. split.
      * apply (ss_app); [exact A4|exact B1|]. intros x y Hx Hy. rewrite Forall_forall in A6, B2.
        specialize (A6 x Hx). specialize (B2 y Hy). cbn in *. left. lia.
      * apply Forall_app. split; [exact A5|]. eapply Forall_impl; [|exact B2]. cbn; intros; lia.
Qed.
End Session.
