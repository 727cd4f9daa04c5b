(** The other cases of the reduction. *)
From Verif Require Import RewriteModel OpModel OpSpec OpProofs OpProofs2 OpProofs3.
From Coq Require Import Permutation.

Section Cases.
Context {K : Type} (kzero : K) (is_zero is_one is_minus_one : K -> bool).
Notation good_step := (good_step kzero is_zero is_one is_minus_one).

Ltac new_facts l i Q Q' :=
  match goal with M : meaning _ _ _ _ _ _ _ _ (replace_object ?G ?o ?new ?cs l) _ |- _ =>
    pose proof (rep_new_lt G o new cs l i) as Q; pose proof (rep_new_kind G o new cs l i) as Q';
    rewrite ?Nat.add_0_r in Q, Q'; cbn [nth length kind_for] in Q, Q';
    specialize (Q ltac:(lia)); specialize (Q' ltac:(lia))
  end.

Lemma in_le1 (l : lang K) o b a c : lang_ok l -> lt l o = LBin b a -> In c (lp l).(conns) -> c.(c_to) = o -> c.(c_in) = 0 \/ c.(c_in) = 1.
Proof. intros OK E Hc Ht. pose proof (lo_to_bin l OK c b a Hc) as H. rewrite Ht in H. specialize (H E). lia. Qed.

(** "fc" *)
Lemma fc_step G o b a l : lang_ok l -> lt l o = LBin b a ->
  fmt_of (at_inlet (lp l) o 0) = FSig -> fmt_of (at_inlet (lp l) o 1) = FCtl -> good_step o l (with_right_var G o b (k_of kzero a) l).
Proof.
  intros OK E F0 F1. assert (HL : is_lang (lt l o)) by now rewrite E. unfold with_right_var.
  apply moved_step; auto.
  - intros [ | [ | [ | [ | i]]]] y; cbn; try discriminate. intros Q. injection Q as <-. exists 1, (k_of kzero a). split; [lia | reflexivity].
  - intros [ | i]; cbn; lia.
  - cbn. lia.
  - intros c [<- | []]. cbn. lia.
  - intros rank R. exists (fun q => if Nat.eqb q (ln l) then rank o else 0). split; [ | split].
    + intros c Hc Ht S. destruct (in_le1 l o b a c OK E Hc Ht) as [-> | Ei]; cbn; [rewrite Nat.eqb_refl; auto | ].
      apply fmt_ctl in F1 as [_ F1]. rewrite (F1 c) in S; [discriminate | ]. apply to_o. auto.
    + now rewrite Nat.eqb_refl.
    + intros c [<- | []]. cbn. rewrite Nat.eqb_refl. replace (Nat.eqb (ln l + 2) (ln l)) with false by (symmetry; apply Nat.eqb_neq; lia).
      now apply (rank_pos l rank o 0).
  - intros A op neg zero cst inp other trace LA V1 M V. split; [ | intros k E'; congruence].
    intros b' a' E'. rewrite E in E'. injection E' as <- <-.
    new_facts l 0 Q0 Q0'. new_facts l 1 Q1 Q1'. new_facts l 2 Q2 Q2'.
    destruct (new_bin _ _ _ _ _ _ _ _ _ _ M (ln l) b Q0 Q0') as (u & w & T0 & T1 & Ev).
    pose proof (new_read _ _ _ _ _ _ _ _ _ _ M _ _ _ Q2 Q2' Q1) as Ez.
    rewrite (held_new trace G o _ _ _ _ l (ln l + 1) 0 1) in Ez; auto; try lia.
    2: { intros c Hc Ht. destruct (in_le1 l o b a c OK E Hc Ht) as [-> | ->]; split; intros H; try reflexivity; try discriminate. injection H; lia. }
    2: { intros c [<- | []]. reflexivity. }
    exists u, w. unfold takes in T0, T1.
    rewrite (arriving_new G o _ _ _ _ l (V1 (ln l) 0) V1 (ln l) 0 0) in T0; auto.
    2: { intros c Hc Ht. destruct (in_le1 l o b a c OK E Hc Ht) as [-> | ->]; split; intros H; try reflexivity; try discriminate. injection H; lia. }
    2: { intros c [<- | []] _. cbn. discriminate. }
    split; [eapply takes_some; [now apply nonempty_arriving | exact T0] | ]. split; [ | exact Ev].
    unfold takes, arriving. rewrite signals_no by (now apply fmt_ctl). cbn [map].
    unfold arriving in T1. cbn [lp replace_object] in T1. rewrite at_new_none in T1; auto.
    + cbn [filter c_to c_in signal_conn] in T1. rewrite !Nat.eqb_refl in T1. cbn in T1. apply sums_single in T1. rewrite T1. exact Ez.
    + intros c Hc Ht. destruct (in_le1 l o b a c OK E Hc Ht) as [-> | ->]; [discriminate | ]. intros H; injection H; lia.
Qed.

(** "cf" *)
Lemma cf_step G o b a l : lang_ok l -> lt l o = LBin b a ->
  fmt_of (at_inlet (lp l) o 0) = FCtl -> fmt_of (at_inlet (lp l) o 1) = FSig -> good_step o l (with_left_var kzero G o b l).
Proof.
  intros OK E F0 F1. assert (HL : is_lang (lt l o)) by now rewrite E. unfold with_left_var.
  apply moved_step; auto.
  - intros [ | [ | [ | [ | i]]]] y; cbn; try discriminate. intros Q. injection Q as <-. exists 1, kzero. split; [lia | reflexivity].
  - intros [ | i]; cbn; lia.
  - cbn. lia.
  - intros c [<- | []]. cbn. lia.
  - intros rank R. exists (fun q => if Nat.eqb q (ln l) then rank o else 0). split; [ | split].
    + intros c Hc Ht S. destruct (in_le1 l o b a c OK E Hc Ht) as [Ei | ->]; cbn; [ | rewrite Nat.eqb_refl; auto].
      apply fmt_ctl in F0 as [_ F0]. rewrite (F0 c) in S; [discriminate | ]. apply to_o. auto.
    + now rewrite Nat.eqb_refl.
    + intros c [<- | []]. cbn. rewrite Nat.eqb_refl. replace (Nat.eqb (ln l + 2) (ln l)) with false by (symmetry; apply Nat.eqb_neq; lia).
      now apply (rank_pos l rank o 1).
  - intros A op neg zero cst inp other trace LA V1 M V. split; [ | intros k E'; congruence].
    intros b' a' E'. rewrite E in E'. injection E' as <- <-.
    new_facts l 0 Q0 Q0'. new_facts l 1 Q1 Q1'. new_facts l 2 Q2 Q2'.
    destruct (new_bin _ _ _ _ _ _ _ _ _ _ M (ln l) b Q0 Q0') as (u & w & T0 & T1 & Ev).
    pose proof (new_read _ _ _ _ _ _ _ _ _ _ M _ _ _ Q2 Q2' Q1) as Ez.
    rewrite (held_new trace G o _ _ _ _ l (ln l + 1) 0 0) in Ez; auto; try lia.
    2: { intros c Hc Ht. destruct (in_le1 l o b a c OK E Hc Ht) as [-> | ->]; split; intros H; try reflexivity; try discriminate. }
    2: { intros c [<- | []]. reflexivity. }
    rewrite (la_zero _ _ _ _ _ _ _ _ LA) in Ez.
    exists u, w. unfold takes in T0, T1.
    rewrite (arriving_new G o _ _ _ _ l (V1 (ln l) 0) V1 (ln l) 1 1) in T1; auto.
    2: { intros c Hc Ht. destruct (in_le1 l o b a c OK E Hc Ht) as [-> | ->]; split; intros H; try reflexivity; try discriminate. }
    2: { intros c [<- | []] _. cbn. discriminate. }
    split; [ | split; [eapply takes_some; [now apply nonempty_arriving | exact T1] | exact Ev]].
    unfold takes, arriving. rewrite signals_no by (now apply fmt_ctl). cbn [map].
    unfold arriving in T0. cbn [lp replace_object] in T0. rewrite at_new_none in T0; auto.
    + cbn [filter c_to c_in signal_conn] in T0. rewrite !Nat.eqb_refl in T0. cbn in T0. apply sums_single in T0. rewrite T0. exact Ez.
    + intros c Hc Ht. destruct (in_le1 l o b a c OK E Hc Ht) as [-> | ->]; [ | discriminate]. intros H; injection H; lia.
Qed.

(** "f_" with a constant *)
Lemma const_step G o b a l : lang_ok l -> lt l o = LBin b a ->
  fmt_of (at_inlet (lp l) o 0) = FSig -> fmt_of (at_inlet (lp l) o 1) = FNone -> good_step o l (with_constant G o b (k_of kzero a) l).
Proof.
  intros OK E F0 F1. assert (HL : is_lang (lt l o)) by now rewrite E. unfold with_constant.
  apply fmt_none in F1.
  assert (Hno : forall c, In c (lp l).(conns) -> c.(c_to) = o -> c.(c_in) = 0).
  { intros c Hc Ht. destruct (in_le1 l o b a c OK E Hc Ht) as [Ei | Ei]; [exact Ei | ]. exfalso. assert (Q : In c (at_inlet (lp l) o 1)) by (apply to_o; auto). rewrite F1 in Q. destruct Q. }
  apply moved_step; auto.
  - intros [ | [ | [ | i]]] y; cbn; discriminate.
  - intros i; cbn; lia.
  - cbn. lia.
  - intros c [<- | []]. cbn. lia.
  - intros rank R. exists (fun q => if Nat.eqb q (ln l) then rank o else 0). split; [ | split].
    + intros c Hc Ht S. cbn. now rewrite Nat.eqb_refl.
    + now rewrite Nat.eqb_refl.
    + intros c [<- | []]. cbn. rewrite Nat.eqb_refl. replace (Nat.eqb (ln l + 1) (ln l)) with false by (symmetry; apply Nat.eqb_neq; lia).
      now apply (rank_pos l rank o 0).
  - intros A op neg zero cst inp other trace LA V1 M V. split; [ | intros k E'; congruence].
    intros b' a' E'. rewrite E in E'. injection E' as <- <-.
    new_facts l 0 Q0 Q0'. new_facts l 1 Q1 Q1'.
    destruct (new_bin _ _ _ _ _ _ _ _ _ _ M (ln l) b Q0 Q0') as (u & w & T0 & T1 & Ev).
    pose proof (new_const _ _ _ _ _ _ _ _ _ _ M _ _ Q1 Q1') as Ez.
    exists u, w. unfold takes in T0, T1.
    rewrite (arriving_new G o _ _ _ _ l (V1 (ln l) 0) V1 (ln l) 0 0) in T0; auto.
    2: { intros c Hc Ht. split; [intros H; injection H; auto | intros ->; reflexivity]. }
    2: { intros c [<- | []] _. cbn. discriminate. }
    split; [eapply takes_some; [now apply nonempty_arriving | exact T0] | ]. split; [ | exact Ev].
    unfold takes, arriving. rewrite F1. cbn [signals filter map]. rewrite held_none by (rewrite F1; intros c []).
    unfold arriving in T1. cbn [lp replace_object] in T1. rewrite at_new_none in T1; auto.
    + cbn [filter c_to c_in signal_conn] in T1. rewrite !Nat.eqb_refl in T1. cbn in T1. apply sums_single in T1. rewrite T1. exact Ez.
    + intros c Hc Ht H. rewrite (Hno c Hc Ht) in H. discriminate.
Qed.

(** [*~ -1] *)
Lemma neg_step G o a l : lang_ok l -> lt l o = LBin OMul a -> is_minus_one (k_of kzero a) = true ->
  fmt_of (at_inlet (lp l) o 0) = FSig -> fmt_of (at_inlet (lp l) o 1) = FNone -> good_step o l (becomes G o INeg l).
Proof.
  intros OK E E1 F0 F1. assert (HL : is_lang (lt l o)) by now rewrite E. unfold becomes. rewrite <- (app_nil_r (map _ _)).
  apply fmt_none in F1.
  apply moved_step; auto.
  - intros [ | [ | i]] y; cbn; discriminate.
  - intros i. cbn. lia.
  - cbn. lia.
  - intros c [].
  - intros rank R. exists (fun _ => rank o). split; [auto | ]. split; [auto | ]. intros c [].
  - intros A op neg zero cst inp other trace LA V1 M V. split; [ | intros k E'; congruence].
    intros b' a' E'. rewrite E in E'. injection E' as <- <-.
    new_facts l 0 Q0 Q0'.
    destruct (new_neg _ _ _ _ _ _ _ _ _ _ M (ln l) Q0 Q0') as (u & T0 & Ev).
    exists u, (cst (k_of kzero a)). unfold takes in T0.
    rewrite (arriving_new G o _ _ _ _ l (V1 (ln l) 0) V1 (ln l) 0 0) in T0; auto; [ | intros; split; congruence].
    split; [ | split].
    + eapply takes_some; [now apply nonempty_arriving | exact T0].
    + unfold takes, arriving. rewrite F1. cbn [signals filter map]. rewrite held_none by (rewrite F1; intros c []). reflexivity.
    + rewrite Ev. symmetry. now apply (la_neg _ _ _ _ _ _ _ _ LA).
Qed.

(** var without inputs *)
Lemma var_const_step G o k l : lang_ok l -> lt l o = LVar k -> fmt_of (at_inlet (lp l) o 0) = FNone -> good_step o l (becomes G o (IConst k) l).
Proof.
  intros OK E F0. assert (HL : is_lang (lt l o)) by now rewrite E. unfold becomes. rewrite <- (app_nil_r (map _ _)).
  apply fmt_none in F0.
  apply moved_step; auto.
  - intros [ | [ | i]] y; cbn; discriminate.
  - intros i. cbn. lia.
  - cbn. lia.
  - intros c [].
  - intros rank R. exists (fun _ => rank o). split; [auto | ]. split; [auto | ]. intros c [].
  - intros A op neg zero cst inp other trace LA V1 M V. split; [intros b a E'; congruence | ].
    intros k' E'. rewrite E in E'. injection E' as <-.
    new_facts l 0 Q0 Q0'. rewrite held_none by (rewrite F0; intros c []).
    apply (new_const _ _ _ _ _ _ _ _ _ _ M _ _ Q0 Q0').
Qed.
(** var with messages *)
Lemma var_read_step G o k l : lang_ok l -> lt l o = LVar k ->
  good_step o l (replace_object G o [IVar k; IRead (ln l)] (map (mv o (fun i => (ln l, i)) (ln l + 1)) (lp l).(conns)) l).
Proof.
  intros OK E. assert (HL : is_lang (lt l o)) by now rewrite E. rewrite <- (app_nil_r (map _ _)).
  apply moved_step; auto.
  - intros [ | [ | [ | i]]] y; cbn; try discriminate. intros Q. injection Q as <-. exists 0, k. split; [lia | reflexivity].
  - intros i. cbn. lia.
  - cbn. lia.
  - intros c [].
  - intros rank R. exists (fun _ => rank o). split; [auto | ]. split; [auto | ]. intros c [].
  - intros A op neg zero cst inp other trace LA V1 M V. split; [intros b a E'; congruence | ].
    intros k' E'. rewrite E in E'. injection E' as <-.
    new_facts l 0 Q0 Q0'. new_facts l 1 Q1 Q1'.
    rewrite (new_read _ _ _ _ _ _ _ _ _ _ M _ _ _ Q1 Q1' Q0).
    apply held_new; auto; try lia; try (intros c Hc Ht; split; congruence); intros c [].
Qed.

(** ** Objects that disappear *)
Lemma gone_step G o new cs l :
  lang_ok l -> is_lang (lt l o) ->
  let l1 := replace_object G o new cs l in
  lang_ok l1 -> fmt_same o l l1 ->
  (forall q i, q < ln l -> q <> o -> forall x y, existsb (sender x y) (at_inlet (lp l1) q i) = existsb (sender x y) (at_inlet (lp l) q i)) ->
  (forall (A : Type) op neg (zero : A) cst inp other trace, laws op neg zero kzero cst is_zero is_one is_minus_one ->
     forall V1, meaning op neg zero kzero cst inp other trace l1 V1 ->
     exists v, let V := put o v V1 in
     (forall b a, lt l o = LBin b a ->
       exists x y, takes op l V o 0 (held trace l o 0 zero) x /\ takes op l V o 1 (held trace l o 1 (cst (k_of kzero a))) y /\ v = op b x y) /\
     (forall k, lt l o = LVar k -> v = held trace l o 0 (cst k)) /\
     forall q i, q < ln l -> q <> o -> Permutation (arriving l V q i) (arriving l1 V1 q i)) ->
  good_step o l l1.
Proof.
  intros OK HL l1 OK1 FS HS HV. split; auto.
  - unfold l1. rewrite rep_ln. lia.
  - intros q L Q. now apply rep_lt.
  - apply rep_new_lang; auto.
  - intros q sg ins outs ch. apply rep_dac.
  - intros q L Q. now apply rep_kind.
  - intros A op neg zero cst inp other trace LA V1 M.
    destruct (HV A op neg zero cst inp other trace LA V1 M) as (v & H1 & H2 & H3).
    exists (put o v V1). split; [ | split; [intros q j Q; now apply put_other | exact H3]].
    eapply step_meaning; eauto. split.
    + unfold l1. rewrite rep_ln. lia.
    + intros q L Q. now apply rep_lt.
    + intros q L Q. now apply rep_kind.
    + intros q i init L Q. apply held_eq. auto.
Qed.
End Cases.
