From Coq Require Import ZifyBool.
From Verif Require Import FlowModel FlowSpec FlowSim FlowProofs FlowProofs2 FlowProofs3 FlowProofs4.

Lemma build_from conns : forall g, (forall c, In c conns -> c_from c <> c_to c) -> exists g', gfold connect_objects conns (Some g) = Some g' /\
  (forall o i, g_outs g' o i = g_outs g o i ++ filter (wire_from o i) conns) /\ (forall o i, g_ins g' o i = g_ins g o i ++ filter (wire_to o i) conns).
Proof.
  induction conns as [|c conns IH]; intros g H.
  - exists g. split; [reflexivity|]. split; intros; cbn [filter]; rewrite app_nil_r; reflexivity.
  - set (g1 := mkGraph (set_let (g_ins g) (c_to c) (c_in c) (g_ins g (c_to c) (c_in c) ++ [c])) (set_let (g_outs g) (c_from c) (c_out c) (g_outs g (c_from c) (c_out c) ++ [c]))).
    assert (E : connect_objects c g = Some g1).
    { unfold connect_objects, add_connection. pose proof (H c (or_introl eq_refl)). destruct (Z.eqb_spec (c_to c) (c_from c)); [congruence|].
      rewrite Z.eqb_refl. cbn [with_outs option_map gbind]. rewrite Z.eqb_refl. reflexivity. }
    destruct (IH g1) as (g' & E' & A & B); [intros x Hx; apply H; right; exact Hx|]. exists g'. split; [|split].
    + unfold gfold. cbn [fold_left gbind]. rewrite E. exact E'.
    + intros o i. rewrite A. cbn [filter g1 g_outs]. destruct (pair_dec (o, i) (c_from c, c_out c)) as [P|P].
      * injection P as -> ->. rewrite set_let_same. unfold wire_from at 2. rewrite Z.eqb_refl, Nat.eqb_refl. cbn [andb]. rewrite <- app_assoc. reflexivity.
      * rewrite set_let_other by exact P. replace (wire_from o i c) with false; [reflexivity|]. unfold wire_from. symmetry. apply Bool.andb_false_iff.
        destruct (Z.eqb_spec (c_from c) o); [right|left; reflexivity]. apply Nat.eqb_neq. congruence.
    + intros o i. rewrite B. cbn [filter g1 g_ins]. destruct (pair_dec (o, i) (c_to c, c_in c)) as [P|P].
      * injection P as -> ->. rewrite set_let_same. unfold wire_to at 2. rewrite Z.eqb_refl, Nat.eqb_refl. cbn [andb]. rewrite <- app_assoc. reflexivity.
      * rewrite set_let_other by exact P. replace (wire_to o i c) with false; [reflexivity|]. unfold wire_to. symmetry. apply Bool.andb_false_iff.
        destruct (Z.eqb_spec (c_to c) o); [right|left; reflexivity]. apply Nat.eqb_neq. congruence.
Qed.
Lemma build_spec conns : (forall c, In c conns -> c_from c <> c_to c) -> exists g, build conns = Some g /\
  (forall o i, g_outs g o i = filter (wire_from o i) conns) /\ (forall o i, g_ins g o i = filter (wire_to o i) conns).
Proof. intros H. destruct (build_from conns (mkGraph (fun _ _ => []) (fun _ _ => [])) H) as (g & E & A & B). exists g. split; [exact E|]. split; [exact A|exact B]. Qed.

Lemma built_consistent nin nout conns g : (forall c, In c conns -> c_from c <> c_to c) -> build conns = Some g ->
  (forall c, In c conns -> (c_out c < nout (c_from c) /\ c_in c < nin (c_to c))%nat) -> consistent nin nout g.
Proof.
  intros H E R. destruct (build_spec conns H) as (g0 & E0 & A & B). assert (g0 = g) by congruence. subst g0. split; [|split; [|split]].
  - intros o i c Hc. rewrite B in Hc. apply filter_In in Hc as (_ & W). unfold wire_to in W. lia.
  - intros o i c Hc. rewrite A in Hc. apply filter_In in Hc as (_ & W). unfold wire_from in W. lia.
  - intros c. rewrite A, B. change (cnt (filter (wire_to (c_to c) (c_in c)) conns) c = cnt (filter (wire_from (c_from c) (c_out c)) conns) c). rewrite !cnt_filter. unfold wire_to, wire_from. rewrite !Z.eqb_refl, !Nat.eqb_refl. reflexivity.
  - intros o i c Hc. rewrite A in Hc. apply filter_In in Hc as (Hc & _). apply R. exact Hc.
Qed.

Section Flow.
Context {M S : Type} (beh : Z -> nat -> M -> prog M S) (conv : ckind -> M -> option M).
Notation exec := (exec beh conv).

Lemma exec_ext f f' : (forall o, f_kind f o = f_kind f' o) -> (forall o i, f_outs f o i = f_outs f' o i) ->
  forall t st st' tr, exec f t st st' tr -> exec f' t st st' tr.
Proof.
  intros HK HO t st st' tr H. induction H.
  - eapply E_box; [rewrite <- HK; exact H|exact IHexec].
  - apply E_pass; [intros b; rewrite <- HK; apply H|]. rewrite <- HK. exact IHexec.
  - constructor.
  - econstructor; eassumption.
  - constructor.
  - apply E_pskip; assumption.
  - eapply E_pcons; [eassumption|rewrite <- HO; eassumption|assumption].
  - constructor.
  - constructor; assumption.
  - constructor; assumption.
  - econstructor; [rewrite <- HO; eassumption|assumption].
Qed.

Lemma exec_det f t st st1 tr1 : exec f t st st1 tr1 -> forall st2 tr2, exec f t st st2 tr2 -> st1 = st2 /\ tr1 = tr2.
Proof.
  induction 1; intros s2 t2 H2; inversion H2; subst;
    repeat match goal with
      | A : f_kind f ?o = NBox ?x, B : f_kind f ?o = NBox ?y |- _ => assert (x = y) by congruence; subst x; clear B
      | A : convert conv ?k ?m = Some ?x, B : convert conv ?k ?m = Some ?y |- _ => assert (x = y) by congruence; subst x; clear B
      | A : f_kind f ?o = NBox ?x, B : forall b, f_kind f ?o <> NBox b |- _ => exfalso; exact (B x A)
      | IH : forall st2 tr2, exec f ?t ?st st2 tr2 -> _, H : exec f ?t ?st _ _ |- _ => destruct (IH _ _ H); clear IH H; subst
    end; try congruence; auto.
Qed.
End Flow.
