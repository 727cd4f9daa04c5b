(** All objects one after the other. *)
From Verif Require Import RewriteModel OpModel OpSpec OpProofs OpProofs2 OpProofs3 OpProofs4 OpProofs5.
From Coq Require Import Permutation.

Lemma same_kind_trans a b c : same_kind a b -> same_kind b c -> same_kind a c.
Proof. destruct a, b, c; cbn; intros; try contradiction; try congruence; intuition congruence. Qed.

Section Reduce.
Context {K : Type} (kzero : K) (is_zero is_one is_minus_one : K -> bool).
Notation good_step := (good_step kzero is_zero is_one is_minus_one).
Notation reduce_one := (reduce_one kzero is_zero is_one is_minus_one).
Notation reduce_all := (reduce_all kzero is_zero is_one is_minus_one).

(** No inlet is mixed, one of them takes signals. *)
Definition ready (l : lang K) : Prop := forall o b a, lt l o = LBin b a ->
  (fmt_of (at_inlet (lp l) o 0) = FSig /\ fmt_of (at_inlet (lp l) o 1) <> FMixed \/
   fmt_of (at_inlet (lp l) o 0) = FCtl /\ fmt_of (at_inlet (lp l) o 1) = FSig) /\
  (b = OMul -> is_zero (k_of kzero a) = true -> fmt_of (at_inlet (lp l) o 1) <> FNone).

Lemma ready_step o l l1 : ready l -> good_step o l l1 -> ready l1.
Proof.
  intros R S q b a E. destruct (gs_new _ _ _ _ _ _ _ S q) as [L Q]; [now rewrite E | ].
  rewrite !(gs_fmt _ _ _ _ _ _ _ S) by auto. apply R. now rewrite <- (gs_lt _ _ _ _ _ _ _ S).
Qed.

Lemma reduce_one_ok G o l : lang_ok l -> ready l ->
  exists l1, reduce_one (G, o) l = Some l1 /\ (is_lang (lt l o) /\ good_step o l l1 \/ ~ is_lang (lt l o) /\ l1 = l).
Proof.
  intros OK R. unfold OpModel.reduce_one. cbn [fst snd]. destruct (lt l o) as [b a | k | t] eqn:E; [ | | exists l; split; [reflexivity | right; split; [intros [] | reflexivity]]].
  - assert (HL : is_lang (lt l o)) by now rewrite E.
    destruct (R o b a E) as (FF & F2). unfold reduce_bin.
    destruct (fmt_of (at_outlet (lp l) o 0)) eqn:F3.
    + apply fmt_none in F3. exists (remove G o l). split; [ | left; split; [exact I | now apply remove_step]].
      destruct (fmt_of (at_inlet (lp l) o 0)), (fmt_of (at_inlet (lp l) o 1)); reflexivity.
    + destruct FF as [[F0 F1] | [F0 F1]]; rewrite F0.
      2: { rewrite F1. eexists. split; [reflexivity | ]. left. split; [exact I | ]. now apply (cf_step _ _ _ _ G o b a). }
      destruct (fmt_of (at_inlet (lp l) o 1)) eqn:F4; [ | | | congruence].
      * exists (with_fixed is_zero is_one is_minus_one G o b (k_of kzero a) l). split; [reflexivity | ]. left. split; [exact I | ].
        unfold with_fixed. destruct (is_identity is_zero is_one b (k_of kzero a)) eqn:EI; [now apply (pass_step _ _ _ _ G o b a) | ].
        destruct b; try (now apply const_step). destruct (is_zero (k_of kzero a)) eqn:EZ; [exfalso; now apply F2 | ].
        destruct (is_minus_one (k_of kzero a)) eqn:EM; [now apply (neg_step _ _ _ _ G o a) | now apply const_step].
      * eexists. split; [reflexivity | ]. left. split; [exact I | ]. now apply (ff_step _ _ _ _ G o b a).
      * eexists. split; [reflexivity | ]. left. split; [exact I | ]. now apply fc_step.
    + exfalso. apply fmt_ctl in F3 as [N F3]. destruct (at_outlet (lp l) o 0) as [ | c cs] eqn:EO; [congruence | ].
      assert (Hc : In c (at_outlet (lp l) o 0)) by (rewrite EO; now left). specialize (F3 c (or_introl eq_refl)).
      apply from_o in Hc as (Hc & Hf & _). destruct (lo_from l OK c Hc) as [_ S]; [now rewrite Hf | ]. congruence.
    + exfalso. unfold fmt_of in F3. destruct (existsb c_sig _); [ | destruct (existsb _ _) in F3; discriminate].
      destruct (existsb (fun c => negb (c_sig c)) (at_outlet (lp l) o 0)) eqn:EX; [ | discriminate].
      apply existsb_exists in EX as (c & Hc & S). apply from_o in Hc as (Hc & Hf & _). destruct (lo_from l OK c Hc) as [_ S']; [now rewrite Hf | ]. now rewrite S' in S.
  - assert (HL : is_lang (lt l o)) by now rewrite E. unfold reduce_var.
    assert (FO : fmt_of (at_outlet (lp l) o 0) = FNone \/ fmt_of (at_outlet (lp l) o 0) = FSig).
    { unfold fmt_of. rewrite (existsb_none (fun c => negb (c_sig c)) (at_outlet (lp l) o 0)).
      - destruct (existsb c_sig _); auto.
      - intros c Hc. apply from_o in Hc as (Hc & Hf & _). destruct (lo_from l OK c Hc) as [_ ->]; [now rewrite Hf | reflexivity]. }
    assert (FI : fmt_of (at_inlet (lp l) o 0) = FNone \/ fmt_of (at_inlet (lp l) o 0) = FCtl).
    { unfold fmt_of. rewrite (existsb_none c_sig (at_inlet (lp l) o 0)).
      - destruct (existsb _ _); auto.
      - intros c Hc. apply to_o in Hc as (Hc & Ht & _). destruct (lo_to_var l OK c k Hc) as [_ S]; [now rewrite Ht | exact S]. }
    destruct FI as [FI | FI], FO as [FO | FO]; rewrite FI, FO; eexists; (split; [reflexivity | ]); left; (split; [exact I | ]).
    + apply ctl_step; auto. now apply fmt_none.
    + now apply var_const_step.
    + apply ctl_step; auto. now apply fmt_none.
    + now apply var_read_step.
Qed.

Record reduced_to (l l' : lang K) : Prop := {
  rt_ok : lang_ok l';
  rt_ln : ln l <= ln l';
  rt_lt : forall q, q < ln l -> ~ is_lang (lt l q) -> lt l' q = lt l q;
  rt_kind : forall q, q < ln l -> ~ is_lang (lt l q) -> same_kind ((lp l).(kind_of) q) ((lp l').(kind_of) q);
  rt_dac : forall q sg ins outs ch, (lp l').(kind_of) q = Leaf sg ins outs (Some ch) -> (lp l).(kind_of) q = Leaf sg ins outs (Some ch);
  rt_sem : forall (A : Type) op neg (zero : A) cst inp other trace, laws op neg zero kzero cst is_zero is_one is_minus_one ->
    forall V', meaning op neg zero kzero cst inp other trace l' V' ->
    exists V, meaning op neg zero kzero cst inp other trace l V /\
      forall q, q < ln l -> ~ is_lang (lt l q) ->
        (forall j, V q j = V' q j) /\ forall i, Permutation (arriving l V q i) (arriving l' V' q i) }.

Lemma reduced_refl l : lang_ok l -> reduced_to l l.
Proof.
  intros OK. split; auto.
  - intros. apply same_kind_refl.
  - intros A op neg zero cst inp other trace LA V M. exists V. auto.
Qed.
Lemma reduced_after o l l1 l' : is_lang (lt l o) -> good_step o l l1 -> reduced_to l1 l' -> reduced_to l l'.
Proof.
  intros HL S R.
  assert (H : forall q, q < ln l -> ~ is_lang (lt l q) -> q <> o /\ q < ln l1 /\ lt l1 q = lt l q /\ ~ is_lang (lt l1 q)).
  { intros q L N. assert (Q : q <> o) by (intros ->; auto). pose proof (gs_ln _ _ _ _ _ _ _ S). rewrite (gs_lt _ _ _ _ _ _ _ S) by auto. repeat (split; [auto; lia | ]). exact N. }
  split.
  - apply R.
  - pose proof (gs_ln _ _ _ _ _ _ _ S). pose proof (rt_ln _ _ R). lia.
  - intros q L N. destruct (H q L N) as (Q & L1 & E & N1). rewrite <- E. now apply (rt_lt _ _ R).
  - intros q L N. destruct (H q L N) as (Q & L1 & E & N1). eapply same_kind_trans; [apply (gs_kind _ _ _ _ _ _ _ S); auto | now apply (rt_kind _ _ R)].
  - intros q sg ins outs ch X. eapply (gs_dac _ _ _ _ _ _ _ S), (rt_dac _ _ R), X.
  - intros A op neg zero cst inp other trace LA V' M.
    destruct (rt_sem _ _ R A op neg zero cst inp other trace LA V' M) as (V1 & M1 & H1).
    destruct (gs_sem _ _ _ _ _ _ _ S A op neg zero cst inp other trace LA V1 M1) as (V & M0 & Hv & Hp).
    exists V. split; [exact M0 | ]. intros q L N. destruct (H q L N) as (Q & L1 & E & N1). destruct (H1 q L1 N1) as [J I]. split.
    + intros j. now rewrite Hv.
    + intros i. etransitivity; [now apply Hp | apply I].
Qed.

Lemma reduce_all_ok todo : forall l, lang_ok l -> ready l ->
  exists l', reduce_all todo l = Some l' /\ reduced_to l l' /\
    forall q, is_lang (lt l' q) -> is_lang (lt l q) /\ ~ In q (map snd todo).
Proof.
  induction todo as [ | [G o] todo IH]; intros l OK R.
  - exists l. split; [reflexivity | ]. split; [now apply reduced_refl | ]. auto.
  - destruct (reduce_one_ok G o l OK R) as (l1 & E & [[HL S] | [NL ->]]); cbn [OpModel.reduce_all]; rewrite E.
    + destruct (IH l1) as (l' & E' & R' & N'); [apply S | now apply (ready_step o l) | ].
      exists l'. split; [exact E' | ]. split; [now apply (reduced_after o l l1) | ].
      intros q Hq. destruct (N' q Hq) as [H1 H2]. destruct (gs_new _ _ _ _ _ _ _ S q H1) as [L Q]. rewrite (gs_lt _ _ _ _ _ _ _ S) in H1 by auto.
      split; [exact H1 | ]. cbn. intros [<- | H]; auto.
    + destruct (IH l OK R) as (l' & E' & R' & N'). exists l'. split; [exact E' | ]. split; [exact R' | ].
      intros q Hq. destruct (N' q Hq) as [H1 H2]. split; [exact H1 | ]. cbn. intros [<- | H]; auto.
Qed.
End Reduce.
