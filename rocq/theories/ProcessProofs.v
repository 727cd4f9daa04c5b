From Verif Require Import ProcessModel ProcessSpec.
From Coq Require Import Permutation Sorted.
Require Import ZifyBool.

Section Proofs.
Context {P M : Type}.
Variable handle : P -> pentry M -> P * list (action M).
Variable dsp : P -> P.
Variable recv : Z -> list Z.
Variable bang : M.
Variable NSIMD : Z.
Hypothesis Hcausal : causal handle.
Hypothesis HN : 0 < NSIMD.

Notation db := (@due_before M).

Lemma del_app (a b : list (event M)) : delivered (a ++ b) = delivered a ++ delivered b.
Proof. apply flat_map_app. Qed.
Lemma sch_app (a b : list (event M)) : scheduled (a ++ b) = scheduled a ++ scheduled b.
Proof. apply flat_map_app. Qed.
Lemma can_app (a b : list (event M)) : cancelled (a ++ b) = cancelled a ++ cancelled b.
Proof. apply flat_map_app. Qed.
Lemma blk_app (a b : list (event M)) : blocks (a ++ b) = blocks a ++ blocks b.
Proof. apply flat_map_app. Qed.

Record SI (s : pstate P M) : Prop := {
  si_sorted : StronglySorted db (s_pend s);
  si_next : Forall (fun e => p_id e < s_next s) (s_pend s)
}.

Lemma insert_perm e (l : list (pentry M)) : Permutation (e :: l) (insert_by_ts e l).
Proof.
  induction l as [|x l IH]; cbn [insert_by_ts]; [reflexivity|].
  destruct (p_ts e <? p_ts x); [reflexivity|]. rewrite perm_swap. constructor. exact IH.
Qed.

Lemma insert_sorted e (l : list (pentry M)) : StronglySorted db l -> Forall (fun x => p_id x < p_id e) l ->
  StronglySorted db (insert_by_ts e l).
Proof.
  induction l as [|x l IH]; intros HS Hid; cbn [insert_by_ts].
  - constructor; constructor.
  - inversion HS as [|? ? HS' Hf]; subst. inversion Hid as [|? ? Hx Hid']; subst.
    destruct (Z.ltb_spec (p_ts e) (p_ts x)).
    + constructor; [exact HS|]. constructor; [left; assumption|].
      eapply Forall_impl; [|exact Hf]. unfold due_before; intros; lia.
    + constructor; [apply IH; assumption|].
      eapply (Permutation_Forall (insert_perm e l)). constructor; [unfold due_before; lia|exact Hf].
Qed.

Lemma filter_split (f : pentry M -> bool) l :
  Permutation l (filter f l ++ filter (fun x => negb (f x)) l).
Proof.
  induction l as [|x l IH]; cbn [filter]; [reflexivity|]. destruct (f x); cbn [negb app].
  - constructor; exact IH.
  - rewrite IH at 1. apply Permutation_middle.
Qed.

Lemma sorted_filter (f : pentry M -> bool) l : StronglySorted db l -> StronglySorted db (filter f l).
Proof.
  induction 1 as [|e S HS IH Hf]; cbn [filter]; [constructor|].
  destruct (f e); [|exact IH]. constructor; [exact IH|]. apply Forall_forall. intros x Hx.
  apply filter_In in Hx. rewrite Forall_forall in Hf. apply Hf; tauto.
Qed.

Lemma evs_cancel (l : list (pentry M)) :
  delivered (map ECancel l) = [] /\ scheduled (map ECancel l) = [] /\ cancelled (map ECancel l) = l /\ blocks (map ECancel l) = [].
Proof. induction l as [|x l (A & B & C & D)]; cbn; repeat split; auto. rewrite <- C at 2. reflexivity. Qed.

Definition quiet (ev : list (event M)) : Prop := delivered ev = [] /\ blocks ev = [].

Lemma do_action_spec s a : SI s ->
  let (s', ev) := do_action s a in
  SI s' /\ quiet ev /\ Permutation (s_pend s ++ scheduled ev) (cancelled ev ++ s_pend s') /\
  s_clock s' = s_clock s /\ s_patch s' = s_patch s /\ s_inq s' = s_inq s /\ s_next s <= s_next s' /\
  Forall (fun e => s_next s <= p_id e) (scheduled ev).
Proof.
  intros [HS Hn]. destruct a as [ts d m|id]; cbn [do_action].
  - unfold schedule. cbn. split; [|split; [split; reflexivity|]].
    + constructor; cbn [s_pend s_next].
      * apply insert_sorted; [exact HS|exact Hn].
      * eapply (Permutation_Forall (insert_perm _ _)). constructor; [cbn; lia|].
        eapply Forall_impl; [|exact Hn]. cbn; intros; lia.
    + split; [|repeat split; try lia; repeat constructor; cbn; lia].
      rewrite <- (insert_perm (mkPE ts (s_next s) d m)). rewrite Permutation_app_comm. reflexivity.
  - unfold cancel. destruct (evs_cancel (filter (fun x => p_id x =? id) (s_pend s))) as (A & B & C & D).
    split; [|split; [split; assumption|]].
    + constructor; cbn [s_pend s_next]; [apply sorted_filter; exact HS|].
      rewrite Forall_forall in Hn |- *. intros x Hx. apply filter_In in Hx. apply Hn; tauto.
    + rewrite B, C. rewrite app_nil_r. split; [apply filter_split|].
      cbn. repeat split; try lia. constructor.
Qed.

Lemma do_actions_spec (l : list (action M)) : forall s : pstate P M, SI s ->
  let (s', ev) := do_actions s l in
  SI s' /\ quiet ev /\ Permutation (s_pend s ++ scheduled ev) (cancelled ev ++ s_pend s') /\
  s_clock s' = s_clock s /\ s_patch s' = s_patch s /\ s_inq s' = s_inq s /\ s_next s <= s_next s' /\
  Forall (fun e => s_next s <= p_id e) (scheduled ev).
Proof.
  induction l as [|a l IH]; intros s HI; cbn [do_actions].
  - split; [exact HI|]. split; [split; reflexivity|]. cbn. rewrite app_nil_r. repeat split; try reflexivity; try lia. constructor.
  - pose proof (do_action_spec s a HI) as H1. destruct (do_action s a) as [s1 e1].
    destruct H1 as (HI1 & (Q1 & Q1') & P1 & C1 & T1 & I1 & N1 & F1).
    pose proof (IH s1 HI1) as H2. destruct (do_actions s1 l) as [s2 e2].
    destruct H2 as (HI2 & (Q2 & Q2') & P2 & C2 & T2 & I2 & N2 & F2).
    split; [exact HI2|]. split; [split; [rewrite del_app, Q1, Q2; reflexivity|rewrite blk_app, Q1', Q2'; reflexivity]|].
    split; [|repeat split; try congruence; try lia].
    + rewrite sch_app, can_app. rewrite app_assoc, P1, <- !app_assoc. apply Permutation_app_head. exact P2.
    + rewrite sch_app. apply Forall_app. split; [exact F1|]. eapply Forall_impl; [|exact F2]. cbn; intros; lia.
Qed.

(** While a message is being handled it stays the head of the queue. *)
Lemma do_actions_head (e : pentry M) (l : list (action M)) : forall s rest, SI s -> s_pend s = e :: rest ->
  (forall a, In a l -> match a with ASched ts _ _ => p_ts e <= ts | ACancel id => id <> p_id e end) ->
  exists rest', s_pend (fst (do_actions s l)) = e :: rest'.
Proof.
  induction l as [|a l IH]; intros s rest HI E Hl; cbn [do_actions].
  - exists rest. exact E.
  - pose proof (do_action_spec s a HI) as H1.
    assert (Hh : exists r1, s_pend (fst (do_action s a)) = e :: r1).
    { specialize (Hl a (or_introl eq_refl)). destruct a as [ts d m|id]; cbn [do_action schedule cancel fst s_pend].
      - rewrite E. cbn [insert_by_ts p_ts]. destruct (Z.ltb_spec ts (p_ts e)); [lia|]. eauto.
      - rewrite E. cbn [filter]. destruct (Z.eqb_spec (p_id e) id); [congruence|]. cbn [negb]. eauto. }
    destruct (do_action s a) as [s1 e1]. destruct H1 as (HI1 & _). cbn [fst] in Hh. destruct Hh as (r1 & E1).
    destruct (IH s1 r1 HI1 E1) as (r' & E'); [intros; apply Hl; right; assumption|].
    destruct (do_actions s1 l) as [s2 e2]. exists r'. exact E'.
Qed.

Lemma db_trans a b c : db a b -> db b c -> db a c.
Proof. unfold due_before; lia. Qed.

(** Lower bounds of the pending timestamps are kept by causal actions of [e]. *)
Lemma do_actions_low (e : pentry M) (l : list (action M)) T : forall s : pstate P M,
  (forall a, In a l -> match a with ASched ts _ _ => p_ts e <= ts | ACancel id => id <> p_id e end) ->
  T <= p_ts e -> Forall (fun x => T <= p_ts x) (s_pend s) ->
  Forall (fun x => T <= p_ts x) (s_pend (fst (do_actions s l))).
Proof.
  induction l as [|a l IH]; intros s Hl HT Hf; cbn [do_actions]; [exact Hf|].
  assert (H1 : Forall (fun x => T <= p_ts x) (s_pend (fst (do_action s a)))).
  { specialize (Hl a (or_introl eq_refl)). destruct a as [ts d m|id]; cbn [do_action schedule cancel fst s_pend].
    - eapply (Permutation_Forall (insert_perm _ _)). constructor; [cbn; lia|exact Hf].
    - rewrite Forall_forall in Hf |- *. intros x Hx. apply filter_In in Hx. apply Hf; tauto. }
  specialize (IH (fst (do_action s a)) (fun b Hb => Hl b (or_intror Hb)) HT H1).
  destruct (do_action s a) as [s1 e1]. cbn [fst] in *. destruct (do_actions s1 l). exact IH.
Qed.

Lemma ss_app (a b : list (pentry M)) : StronglySorted db a -> StronglySorted db b ->
  (forall x y, In x a -> In y b -> db x y) -> StronglySorted db (a ++ b).
Proof.
  induction 1 as [|e S1 HS IH Hf]; cbn [app]; intros H2 Hc; [exact H2|].
  constructor.
  - apply IH; [exact H2|]. intros; apply Hc; [right|]; assumption.
  - apply Forall_app; split; [exact Hf|]. apply Forall_forall. intros y Hy. apply Hc; [left; reflexivity|exact Hy].
Qed.

Record RB (s s' : pstate P M) (ev : list (event M)) (lim T : Z) : Prop := {
  rb_si : SI s';
  rb_sorted : StronglySorted db (delivered ev);
  rb_lt : Forall (fun e => p_ts e < lim) (delivered ev);
  rb_ge : Forall (fun e => lim <= p_ts e) (s_pend s');
  rb_perm : Permutation (s_pend s ++ scheduled ev) (delivered ev ++ cancelled ev ++ s_pend s');
  rb_blk : blocks ev = [];
  rb_clock : s_clock s' = s_clock s;
  rb_inq : s_inq s' = s_inq s;
  rb_low : Forall (fun e => T <= p_ts e) (s_pend s) ->
           Forall (fun e => T <= p_ts e) (delivered ev);
  rb_next : s_next s <= s_next s'
}.

Lemma run_before_spec fuel : forall s lim s' ev T, SI s ->
  run_before handle fuel s lim = Some (s', ev) ->
  RB s s' ev lim T /\
  (forall d, Forall (db d) (s_pend s) -> p_id d < s_next s -> Forall (db d) (delivered ev)).
Proof.
  induction fuel as [|fuel IH]; intros s lim s' ev T HI H; cbn [run_before] in H.
  - destruct (s_pend s) as [|e rest] eqn:E.
    + injection H as <- <-. split; [|intros; constructor]. constructor; cbn; try reflexivity; try (constructor; fail); try assumption; try lia.
      * rewrite E; constructor.
      * rewrite E. reflexivity.
    + destruct (Z.ltb_spec (p_ts e) lim); [discriminate|]. injection H as <- <-. split; [|intros; constructor].
      constructor; cbn; try reflexivity; try (constructor; fail); try assumption; try lia.
      * rewrite E. pose proof (si_sorted _ HI) as HS. rewrite E in HS. inversion HS as [|? ? _ Hf]; subst.
        constructor; [assumption|]. eapply Forall_impl; [|exact Hf]. unfold due_before; intros; lia.
      * rewrite app_nil_r. reflexivity.
  - destruct (s_pend s) as [|e rest] eqn:E.
    + injection H as <- <-. split; [|intros; constructor]. constructor; cbn; try reflexivity; try (constructor; fail); try assumption; try lia.
      * rewrite E; constructor.
      * rewrite E. reflexivity.
    + destruct (Z.ltb_spec (p_ts e) lim) as [Hlt|Hge].
      2:{ injection H as <- <-. split; [|intros; constructor].
          constructor; cbn; try reflexivity; try (constructor; fail); try assumption; try lia.
          - rewrite E. pose proof (si_sorted _ HI) as HS. rewrite E in HS. inversion HS as [|? ? _ Hf]; subst.
            constructor; [assumption|]. eapply Forall_impl; [|exact Hf]. unfold due_before; intros; lia.
          - rewrite app_nil_r. reflexivity. }
      destruct (handle (s_patch s) e) as [p' acts] eqn:Eh.
      assert (Hacts : forall a, In a acts -> match a with ASched ts _ _ => p_ts e <= ts | ACancel id => id <> p_id e end).
      { intros a Ha. apply (Hcausal (s_patch s) e a). rewrite Eh. exact Ha. }
      set (s0 := set_patch s p') in *.
      assert (HI0 : SI s0) by (destruct HI; constructor; assumption).
      pose proof (do_actions_spec acts s0 HI0) as HA.
      pose proof (do_actions_head e acts s0 rest HI0 E Hacts) as HH.
      destruct (do_actions s0 acts) as [s1 ev1] eqn:Ea.
      destruct HA as (HI1 & (Qd & Qb) & HP1 & Hc1 & _ & Hi1 & Hn1 & Hf1). cbn [fst] in HH. destruct HH as (r1 & E1).
      destruct (run_before handle fuel (set_pend s1 (tl (s_pend s1))) lim) as [[s3 ev3]|] eqn:Er; [|discriminate].
      injection H as <- <-. rewrite E1 in Er. cbn [tl] in Er.
      set (s2 := set_pend s1 r1) in *.
      pose proof (si_sorted _ HI1) as HS1. rewrite E1 in HS1. inversion HS1 as [|? ? HSr Hfr]; subst.
      pose proof (si_next _ HI1) as Hnx1. rewrite E1 in Hnx1. inversion Hnx1 as [|? ? Hne Hnr]; subst.
      assert (HI2 : SI s2) by (constructor; assumption).
      destruct (IH s2 lim s3 ev3 T HI2 Er) as (RB3 & Hd3).
      assert (Hed : Forall (db e) (delivered ev3)) by (apply Hd3; [exact Hfr|exact Hne]).
      destruct RB3 as [B1 B2 B3 B4 B5 B6 B7 B8 B9 B10].
      assert (Edel : delivered (EDeliver e :: ev1 ++ ev3) = e :: delivered ev3).
      { cbn. fold (delivered (ev1 ++ ev3)). rewrite del_app, Qd. reflexivity. }
      assert (Esch : scheduled (EDeliver e :: ev1 ++ ev3) = scheduled ev1 ++ scheduled ev3).
      { cbn. fold (scheduled (ev1 ++ ev3)). apply sch_app. }
      assert (Ecan : cancelled (EDeliver e :: ev1 ++ ev3) = cancelled ev1 ++ cancelled ev3).
      { cbn. fold (cancelled (ev1 ++ ev3)). apply can_app. }
      split.
      * constructor.
        -- exact B1.
        -- rewrite Edel. constructor; assumption.
        -- rewrite Edel. constructor; assumption.
        -- exact B4.
        -- rewrite Edel, Esch, Ecan. change (s_pend s) with (s_pend s0). rewrite app_assoc, HP1, E1.
           cbn [app]. change (s_pend s2) with r1 in B5.
           rewrite <- (Permutation_middle (cancelled ev1)). cbn [app]. constructor. rewrite <- !app_assoc.
           rewrite B5. rewrite !app_assoc. apply Permutation_app_tail. apply Permutation_app_tail. apply Permutation_app_comm.
        -- cbn. fold (blocks (ev1 ++ ev3)). rewrite blk_app, Qb, B6. reflexivity.
        -- rewrite B7. exact Hc1.
        -- rewrite B8. exact Hi1.
        -- intros Hlow. rewrite Edel. rewrite E in Hlow. inversion Hlow as [|? ? Hle Hlr]; subst. constructor; [exact Hle|].
           apply B9. change (s_pend s2) with r1.
           assert (HL : Forall (fun x => T <= p_ts x) (s_pend (fst (do_actions s0 acts)))).
           { apply (do_actions_low e); [exact Hacts|exact Hle|]. change (s_pend s0) with (s_pend s). rewrite E. exact Hlow. }
           rewrite Ea in HL. cbn [fst] in HL. rewrite E1 in HL. inversion HL; assumption.
        -- change (s_next s2) with (s_next s1) in B10. change (s_next s0) with (s_next s) in Hn1. lia.
      * intros d Hd Hid. rewrite Edel. inversion Hd as [|? ? Hde Hdr]; subst. constructor; [exact Hde|].
        eapply Forall_impl; [|exact Hed]. intros x Hx. eapply db_trans; eassumption.
Qed.

(** Blocks. *)
Fixpoint starts (t : Z) (k : nat) : list Z :=
  match k with O => [] | S k' => t :: starts (t + NSIMD) k' end.

Record RK (s s' : pstate P M) (ev : list (event M)) (k : nat) : Prop := {
  rk_si : SI s';
  rk_sorted : StronglySorted db (delivered ev);
  rk_ge : Forall (fun e => s_clock s' <= p_ts e) (s_pend s') \/ k = O;
  rk_perm : Permutation (s_pend s ++ scheduled ev) (delivered ev ++ cancelled ev ++ s_pend s');
  rk_blk : blocks ev = starts (s_clock s) k;
  rk_clock : s_clock s' = s_clock s + NSIMD * Z.of_nat k;
  rk_inq : s_inq s' = s_inq s;
  rk_lt : Forall (fun e => p_ts e < s_clock s') (delivered ev);
  rk_low : forall T, Forall (fun e => T <= p_ts e) (s_pend s) -> Forall (fun e => T <= p_ts e) (delivered ev);
  rk_split : forall a t b, ev = a ++ EBlock t :: b ->
     Forall (fun e => p_ts e < t + NSIMD) (delivered a) /\ Forall (fun e => t + NSIMD <= p_ts e) (delivered b)
}.

Lemma split_block (ev1 : list (event M)) : blocks ev1 = [] -> forall t0 ev3 a t b,
  ev1 ++ EBlock t0 :: ev3 = a ++ EBlock t :: b ->
  (a = ev1 /\ t = t0 /\ b = ev3) \/ (exists a', a = ev1 ++ EBlock t0 :: a' /\ ev3 = a' ++ EBlock t :: b).
Proof.
  induction ev1 as [|x ev1 IH]; intros Hb t0 ev3 a t b H.
  - destruct a as [|y a]; cbn [app] in H.
    + injection H as -> ->. left; auto.
    + injection H as <- H. right. exists a. auto.
  - destruct a as [|y a]; cbn [app] in H.
    + injection H as -> H. cbn in Hb. discriminate.
    + injection H as <- H. assert (Hb' : blocks ev1 = []).
      { destruct x; cbn in Hb; try exact Hb. discriminate. }
      destruct (IH Hb' t0 ev3 a t b H) as [(-> & -> & ->)|(a' & -> & ->)]; [left; auto|right; exists a'; auto].
Qed.

Lemma run_blocks_spec fuel k : forall s s' ev, SI s -> 0 <= s_clock s -> s_clock s + NSIMD * Z.of_nat k < 4294967296 ->
  run_blocks handle dsp NSIMD fuel k s = Some (s', ev) -> RK s s' ev k.
Proof.
  induction k as [|k IH]; intros s s' ev HI Hc0 Hc H; cbn [run_blocks] in H.
  - injection H as <- <-. constructor; cbn; try reflexivity; try (constructor; fail); try assumption; try lia; auto.
    + rewrite app_nil_r. reflexivity.
    + intros a t b Ha. destruct a; discriminate.
  - assert (Hnx : u32 (s_clock s + NSIMD) = s_clock s + NSIMD) by (apply u32_id; nia). rewrite Hnx in H.
    destruct (run_before handle fuel s (s_clock s + NSIMD)) as [[s1 ev1]|] eqn:E1; [|discriminate].
    set (s2 := set_clock (set_patch s1 (dsp (s_patch s1))) (s_clock s + NSIMD)) in *.
    destruct (run_blocks handle dsp NSIMD fuel k s2) as [[s3 ev3]|] eqn:E3; [|discriminate].
    injection H as <- <-.
    destruct (run_before_spec fuel s _ s1 ev1 0 HI E1) as ([A1 A2 A3 A4 A5 A6 A7 A8 _ A10] & _).
    assert (HI2 : SI s2) by (destruct A1; constructor; assumption).
    assert (RK3 : RK s2 s3 ev3 k) by (apply IH; [exact HI2|unfold s2; cbn; lia|unfold s2; cbn; lia|exact E3]).
    destruct RK3 as [B1 B2 B3 B4 B5 B6 B7 B8 B9 B10].
    assert (Hge3 : Forall (fun e => s_clock s + NSIMD <= p_ts e) (delivered ev3)) by (apply B9; exact A4).
    assert (Edel : delivered (ev1 ++ EBlock (s_clock s) :: ev3) = delivered ev1 ++ delivered ev3) by (rewrite del_app; reflexivity).
    assert (Hcl : s_clock s3 = s_clock s + NSIMD * Z.of_nat (S k)).
    { rewrite B6. unfold s2; cbn [set_clock s_clock]. lia. }
    constructor.
    + exact B1.
    + rewrite Edel. apply ss_app; [exact A2|exact B2|]. intros x y Hx Hy.
      rewrite Forall_forall in A3, Hge3. specialize (A3 x Hx). specialize (Hge3 y Hy). left. lia.
    + left. destruct B3 as [B3| ->]; [exact B3|]. cbn [run_blocks] in E3. injection E3 as <- <-. exact A4.
    + rewrite Edel. rewrite sch_app, can_app. cbn [scheduled cancelled flat_map app].
      fold (scheduled ev3) (cancelled ev3). change (s_pend s2) with (s_pend s1) in B4.
      rewrite app_assoc, A5. rewrite <- !app_assoc.
      rewrite B4. rewrite !app_assoc. apply Permutation_app_tail. apply Permutation_app_tail.
      rewrite <- !app_assoc. apply Permutation_app_head. apply Permutation_app_comm.
    + rewrite blk_app, A6. cbn [app starts]. cbn. fold (blocks ev3). rewrite B5. reflexivity.
    + exact Hcl.
    + rewrite B7. exact A8.
    + rewrite Edel. apply Forall_app. split; [|exact B8]. eapply Forall_impl; [|exact A3]. intros e He. cbn in He. rewrite Hcl. nia.
    + intros T HT. destruct (run_before_spec fuel s _ s1 ev1 T HI E1) as (R & _).
      rewrite Edel. apply Forall_app. split; [exact (rb_low _ _ _ _ _ R HT)|].
      (* pending after the block are either old or scheduled by delivered ones *)
      apply B9. change (s_pend s2) with (s_pend s1).
      assert (Hlow : Forall (fun e => T <= p_ts e) (s_pend s1)); [|exact Hlow].
      clear - E1 HI HT Hcausal recv dsp bang HN.
      remember (s_clock s + NSIMD) as lim eqn:Elim. clear Elim. revert s s1 ev1 HI HT E1.
      induction fuel as [|fuel IHf]; intros s0 s1 ev1 HI HT E1; cbn [run_before] in E1.
      * destruct (s_pend s0) as [|e rest] eqn:E; [injection E1 as <- <-; rewrite E; constructor|].
        destruct (p_ts e <? lim); [discriminate|]. injection E1 as <- <-. rewrite E. exact HT.
      * destruct (s_pend s0) as [|e rest] eqn:E; [injection E1 as <- <-; rewrite E; constructor|].
        destruct (p_ts e <? lim); [|injection E1 as <- <-; rewrite E; exact HT].
        destruct (handle (s_patch s0) e) as [p' acts] eqn:Eh.
        assert (Hacts : forall a, In a acts -> match a with ASched ts _ _ => p_ts e <= ts | ACancel id => id <> p_id e end).
        { intros a Ha. apply (Hcausal (s_patch s0) e a). rewrite Eh. exact Ha. }
        assert (HI0 : SI (set_patch s0 p')) by (destruct HI; constructor; assumption).
        pose proof (do_actions_spec acts _ HI0) as HA.
        pose proof (do_actions_head e acts (set_patch s0 p') rest HI0 E Hacts) as HH.
        inversion HT as [|? ? Hle Hlr]; subst.
        assert (HL : Forall (fun x => T <= p_ts x) (s_pend (fst (do_actions (set_patch s0 p') acts)))).
        { apply (do_actions_low e); [exact Hacts|exact Hle|]. change (s_pend (set_patch s0 p')) with (s_pend s0). rewrite E. exact HT. }
        destruct (do_actions (set_patch s0 p') acts) as [s5 ev5]. cbn [fst] in HH, HL. destruct HH as (r5 & E5). rewrite E5 in *. cbn [tl] in E1.
        destruct (run_before handle fuel (set_pend s5 r5) lim) as [[s6 ev6]|] eqn:E6; [|discriminate].
        injection E1 as <- <-. destruct HA as (HI5 & _). destruct HI5 as [HS5 HN5]. rewrite E5 in HS5, HN5.
        inversion HS5; inversion HN5; subst. eapply (IHf (set_pend s5 r5)); [|inversion HL; assumption|exact E6].
        constructor; assumption.
    + intros a t b Hab. destruct (split_block ev1 A6 _ _ _ _ _ Hab) as [(-> & -> & ->)|(a' & -> & ->)].
      * split; [exact A3|exact Hge3].
      * destruct (B10 a' t b eq_refl) as (C1 & C2). split; [|exact C2].
        rewrite del_app. cbn. fold (delivered a'). apply Forall_app. split; [|exact C1].
        assert (Ht : s_clock s <= t).
        { assert (Hin : In t (starts (s_clock s2) k)).
          { rewrite <- B5. rewrite blk_app. apply in_or_app. right. left. reflexivity. }
          clear -Hin HN. assert (G : forall k t0, In t (starts t0 k) -> t0 <= t).
          { clear Hin k. induction k as [|k IH]; intros t0 H; [destruct H|]. destruct H as [->|H]; [lia|]. apply IH in H. lia. }
          apply G in Hin. unfold s2 in Hin; cbn in Hin. lia. }
        eapply Forall_impl; [|exact A3]. cbn; intros; lia.
Qed.

Lemma drain_inq_spec l : forall s, SI s ->
  let (s', ev) := drain_inq recv s l in
  SI s' /\ quiet ev /\ cancelled ev = [] /\ Permutation (s_pend s ++ scheduled ev) (s_pend s') /\
  s_clock s' = s_clock s /\ s_patch s' = s_patch s /\ s_inq s' = [] /\
  map (fun e => (p_ts e, p_dest e, p_msg e)) (scheduled ev) =
    flat_map (fun r => map (fun d => (snd (fst r), d, snd r)) (recv (fst (fst r)))) l.
Proof.
  induction l as [|[[h ts] m] l IH]; intros s HI; cbn [drain_inq].
  - destruct HI. split; [constructor; assumption|]. split; [split; reflexivity|]. cbn. rewrite app_nil_r.
    repeat split; reflexivity.
  - unfold schedule_for_receiver.
    assert (G : forall ds s, SI s -> let (s', ev) := do_actions s (map (fun d => ASched ts d m) ds) in
       cancelled ev = [] /\ map (fun e => (p_ts e, p_dest e, p_msg e)) (scheduled ev) = map (fun d => (ts, d, m)) ds).
    { clear - recv Hcausal HN dsp bang. induction ds as [|d ds IH]; intros s HI; cbn [map do_actions]; [split; reflexivity|].
      cbn [do_action schedule].
      set (s1 := mkPS _ _ _ _ _). assert (HI1 : SI s1).
      { pose proof (do_action_spec s (ASched ts d m) HI) as H. cbn [do_action schedule] in H. apply H. }
      specialize (IH s1 HI1). destruct (do_actions s1 (map (fun d => ASched ts d m) ds)) as [s2 e2].
      destruct IH as (C & S). cbn. fold (cancelled e2) (scheduled e2). rewrite C, S. auto. }
    specialize (G (recv h) s HI). pose proof (do_actions_spec (map (fun d => ASched ts d m) (recv h)) s HI) as HA.
    destruct (do_actions s (map (fun d => ASched ts d m) (recv h))) as [s1 e1].
    destruct G as (C1 & S1). destruct HA as (HI1 & (Q1 & Q1') & P1 & Hc1 & Hp1 & _).
    specialize (IH s1 HI1). destruct (drain_inq recv s1 l) as [s2 e2].
    destruct IH as (HI2 & (Q2 & Q2') & C2 & P2 & Hc2 & Hp2 & Hi2 & S2).
    split; [exact HI2|]. split; [split; [rewrite del_app, Q1, Q2; reflexivity|rewrite blk_app, Q1', Q2'; reflexivity]|].
    rewrite can_app, C1, C2. split; [reflexivity|].
    rewrite sch_app. split; [rewrite app_assoc, P1, C1; exact P2|].
    split; [congruence|]. split; [congruence|]. split; [exact Hi2|].
    rewrite map_app, S1, S2. reflexivity.
Qed.

(** SI is preserved even when the clock wraps. *)
Lemma run_blocks_si fuel k : forall s s' ev, SI s ->
  run_blocks handle dsp NSIMD fuel k s = Some (s', ev) -> SI s' /\ (0 <= s_clock s -> 0 <= s_clock s') /\ s_inq s' = s_inq s.
Proof.
  induction k as [|k IH]; intros s s' ev HI H; cbn [run_blocks] in H.
  - injection H as <- <-. auto.
  - destruct (run_before handle fuel s (u32 (s_clock s + NSIMD))) as [[s1 ev1]|] eqn:E1; [|discriminate].
    set (s2 := set_clock (set_patch s1 (dsp (s_patch s1))) (u32 (s_clock s + NSIMD))) in *.
    destruct (run_blocks handle dsp NSIMD fuel k s2) as [[s3 ev3]|] eqn:E3; [|discriminate].
    injection H as <- <-.
    destruct (run_before_spec fuel s _ s1 ev1 0 HI E1) as (R & _).
    assert (HI2 : SI s2) by (destruct (rb_si _ _ _ _ _ R); constructor; assumption).
    destruct (IH s2 s3 ev3 HI2 E3) as (H1 & H2 & H3). split; [exact H1|]. split.
    + intros _. apply H2. unfold s2; cbn. apply u32_range.
    + rewrite H3. exact (rb_inq _ _ _ _ _ R).
Qed.

Lemma host_send_si s h d m : SI s -> SI (host_send s h d m).
Proof. intros [A B]; constructor; assumption. Qed.

Lemma process_si fuel s n s' ev : SI s -> process handle dsp recv bang NSIMD fuel s n = Some (s', ev) ->
  SI s' /\ (0 <= s_clock s -> 0 <= s_clock s').
Proof.
  intros HI H. unfold process in H. pose proof (drain_inq_spec (s_inq s) s HI) as HD.
  destruct (drain_inq recv s (s_inq s)) as [s1 ev1]. destruct HD as (HI1 & _ & _ & _ & Hc & _).
  destruct (run_blocks handle dsp NSIMD fuel (Z.to_nat (n / NSIMD)) (host_send s1 HV_BANG 0 bang)) as [[s3 ev3]|] eqn:E; [|discriminate].
  injection H as <- <-. destruct (run_blocks_si fuel _ _ _ _ (host_send_si s1 HV_BANG 0 bang HI1) E) as (A & B & _).
  split; [exact A|]. intros H0. apply B. cbn. rewrite Hc. exact H0.
Qed.

Lemma session_si fuel ops : forall s s' ev, SI s -> session handle dsp recv bang NSIMD fuel s ops = Some (s', ev) ->
  SI s' /\ (0 <= s_clock s -> 0 <= s_clock s').
Proof.
  induction ops as [|o ops IH]; intros s s' ev HI H; cbn [session] in H.
  - injection H as <- <-. auto.
  - destruct o as [h d m|n].
    + apply (IH _ _ _ (host_send_si s h d m HI) H).
    + destruct (process handle dsp recv bang NSIMD fuel s n) as [[s1 ev1]|] eqn:E; [|discriminate].
      destruct (session handle dsp recv bang NSIMD fuel s1 ops) as [[s2 ev2]|] eqn:E2; [|discriminate].
      injection H as <- <-. destruct (process_si fuel s n s1 ev1 HI E) as (A & B).
      destruct (IH s1 s2 ev2 A E2) as (C & D). split; [exact C|]. intros; apply D, B; assumption.
Qed.

Lemma fresh_si p : SI (fresh p).
Proof. constructor; constructor. Qed.

Lemma run_blocks_add fuel a b : forall s,
  run_blocks handle dsp NSIMD fuel (a + b) s =
  match run_blocks handle dsp NSIMD fuel a s with
  | None => None
  | Some (s1, e1) => match run_blocks handle dsp NSIMD fuel b s1 with
                     | None => None
                     | Some (s2, e2) => Some (s2, e1 ++ e2)
                     end
  end.
Proof.
  induction a as [|a IH]; intros s; cbn [Nat.add run_blocks].
  - destruct (run_blocks handle dsp NSIMD fuel b s) as [[s2 e2]|]; reflexivity.
  - destruct (run_before handle fuel s (u32 (s_clock s + NSIMD))) as [[s1 e1]|]; [|reflexivity].
    rewrite IH. destruct (run_blocks handle dsp NSIMD fuel a _) as [[s2 e2]|]; [|reflexivity].
    destruct (run_blocks handle dsp NSIMD fuel b s2) as [[s3 e3]|]; [|reflexivity].
    rewrite <- app_assoc. reflexivity.
Qed.
End Proofs.

Lemma split_pre {M} (ev1 : list (event M)) : forall ev3 a t b, blocks ev1 = [] ->
  ev1 ++ ev3 = a ++ EBlock t :: b -> exists a', a = ev1 ++ a' /\ ev3 = a' ++ EBlock t :: b.
Proof.
  induction ev1 as [|x ev1 IH]; intros ev3 a t b Hb H; cbn [app] in *.
  - exists a; auto.
  - destruct a as [|y a]; cbn [app] in H.
    + injection H as -> H. cbn in Hb. discriminate.
    + injection H as <- H. assert (Hb' : blocks ev1 = []) by (destruct x; cbn in Hb; try exact Hb; discriminate).
      destruct (IH ev3 a t b Hb' H) as (a' & -> & ->). exists a'; auto.
Qed.
