From Verif Require Import SysSpec MessageProofs2 MessageProps.
From Coq Require Import String Lia.

Lemma values_of_nth mem l vs : values_of mem l = Some vs ->
  forall i v, nth_error vs i = Some v -> exists e, nth_error l i = Some (Some e) /\ value_of mem e = Some v.
Proof.
  revert vs. induction l as [|[e|] l IH]; intros vs H i v Hi; cbn [values_of] in H; try discriminate.
  - injection H as <-. destruct i; discriminate.
  - destruct (value_of mem e) as [w|] eqn:E; [|discriminate]. destruct (values_of mem l) as [ws|] eqn:E2; [|discriminate].
    injection H as <-. destruct i; cbn in *; [injection Hi as <-; exists e; auto|eapply IH; eauto].
Qed.
Lemma nth_error_firstn' {A} (l : list A) n i x : nth_error (firstn n l) i = Some x -> nth_error l i = Some x.
Proof. revert n i. induction l as [|a l IH]; intros [|n] [|i]; cbn; try discriminate; auto. apply IH. Qed.
Lemma values_nth mem m vs i v : values mem m = Some vs -> nth_error vs i = Some v ->
  exists e, get_elem m (Z.of_nat i) = Ok e /\ value_of mem e = Some v.
Proof.
  intros H Hi. apply values_spec in H as (Hn & H).
  destruct (values_of_nth mem _ vs H i v Hi) as (e & He & Hv). exists e. split; [|exact Hv].
  pose proof (values_of_length mem _ vs H) as L. rewrite firstn_length in L. unfold zlen in Hn.
  assert (i < List.length vs)%nat by (apply nth_error_Some; congruence).
  unfold get_elem. rewrite (proj2 (Z.ltb_lt (Z.of_nat i) (m_n m))) by lia.
  rewrite (proj2 (Z.leb_le 0 (Z.of_nat i))) by lia. rewrite Nat2Z.id. apply nth_error_firstn' in He. rewrite He. reflexivity.
Qed.
Lemma values_end mem m vs i : values mem m = Some vs -> (List.length vs <= i)%nat -> get_elem m (Z.of_nat i) = AssertFail.
Proof.
  intros H Hi. apply values_spec in H as (Hn & H).
  pose proof (values_of_length mem _ vs H) as L. rewrite firstn_length in L. unfold zlen in Hn.
  unfold get_elem. rewrite (proj2 (Z.ltb_ge (Z.of_nat i) (m_n m))) by lia. reflexivity.
Qed.
Lemma beq_iff a b : beq a b = true <-> a = b.
Proof.
  revert b. induction a as [|x a IH]; intros [|y b]; cbn; split; intro H; try discriminate; auto.
  - apply andb_prop in H as [H1 H2]. apply Z.eqb_eq in H1. apply IH in H2. congruence.
  - injection H as <- <-. rewrite Z.eqb_refl. apply IH. reflexivity.
Qed.

Lemma compare_spec mem m vs i v w : values mem m = Some vs -> nth_error vs i = Some v ->
  exists b, msg_compareSymbol mem m (Z.of_nat i) (word w) = Ok b /\ (b = true <-> says v w).
Proof.
  intros H Hi. destruct (values_nth mem m vs i v H Hi) as (e & He & Hv). unfold msg_compareSymbol. rewrite He. cbn [obind].
  destruct e; cbn [value_of] in Hv.
  - injection Hv as <-. exists false. split; [reflexivity|cbn; split; [discriminate|tauto]].
  - injection Hv as <-. exists false. split; [reflexivity|cbn; split; [discriminate|tauto]].
  - destruct (cstr mem p) as [s| |]; try discriminate. injection Hv as <-. cbn [obind]. eexists. split; [reflexivity|]. cbn. apply beq_iff.
  - injection Hv as <-. eexists. split; [reflexivity|]. cbn. apply Z.eqb_eq.
Qed.
Lemma compare_spec' mem m vs i v w : values mem m = Some vs -> nth_error vs i = Some v ->
  exists b, msg_compareSymbol mem m (Z.of_nat i) (word w) = Ok b /\ (if b then says v w else ~ says v w).
Proof.
  intros H Hi. destruct (compare_spec mem m vs i v w H Hi) as (b & E & Hb). exists b. split; [exact E|].
  destruct b; [apply Hb; reflexivity|intro X; apply Hb in X; discriminate].
Qed.
Lemma compare_end mem m vs i w : values mem m = Some vs -> (List.length vs <= i)%nat ->
  msg_compareSymbol mem m (Z.of_nat i) (word w) = AssertFail.
Proof. intros H Hi. unfold msg_compareSymbol. rewrite (values_end mem m vs i H Hi). reflexivity. Qed.
Lemma getHash_spec mem m vs i v : values mem m = Some vs -> nth_error vs i = Some v -> msg_getHash mem m (Z.of_nat i) = Ok (key v).
Proof.
  intros H Hi. destruct (values_nth mem m vs i v H Hi) as (e & He & Hv). unfold msg_getHash. rewrite He. cbn [obind].
  destruct e; cbn [value_of] in Hv.
  - injection Hv as <-. reflexivity.
  - injection Hv as <-. reflexivity.
  - destruct (cstr mem p) as [s| |]; try discriminate. injection Hv as <-. reflexivity.
  - injection Hv as <-. reflexivity.
Qed.
Lemma getHash_end mem m vs i : values mem m = Some vs -> (List.length vs <= i)%nat -> msg_getHash mem m (Z.of_nat i) = AssertFail.
Proof. intros H Hi. unfold msg_getHash. rewrite (values_end mem m vs i H Hi). reflexivity. Qed.

(** Different words are never confused: neither the texts nor the hashes agree. *)
Definition apart (w w' : string) : Prop := word w <> word w' /\ hv_string_to_hash (word w) <> hv_string_to_hash (word w').
Lemma says_apart v w w' : apart w w' -> says v w -> says v w' -> False.
Proof. intros [A B]. destruct v; cbn; try tauto; congruence. Qed.
Ltac ap := split; vm_compute; discriminate.
Lemma ap_ri : apart "samplerate" "numInputChannels". Proof. ap. Qed.
Lemma ap_ro : apart "samplerate" "numOutputChannels". Proof. ap. Qed.
Lemma ap_rc : apart "samplerate" "currentTime". Proof. ap. Qed.
Lemma ap_rt : apart "samplerate" "table". Proof. ap. Qed.
Lemma ap_io : apart "numInputChannels" "numOutputChannels". Proof. ap. Qed.
Lemma ap_ic : apart "numInputChannels" "currentTime". Proof. ap. Qed.
Lemma ap_it : apart "numInputChannels" "table". Proof. ap. Qed.
Lemma ap_oc : apart "numOutputChannels" "currentTime". Proof. ap. Qed.
Lemma ap_ot : apart "numOutputChannels" "table". Proof. ap. Qed.
Lemma ap_ct : apart "currentTime" "table". Proof. ap. Qed.
Lemma ap_ls : apart "length" "size". Proof. ap. Qed.
Lemma ap_lh : apart "length" "head". Proof. ap. Qed.
Lemma ap_sh : apart "size" "head". Proof. ap. Qed.

Ltac clash := exfalso; match goal with
  | H1 : says ?v ?a, H2 : says ?v ?b |- _ =>
    first [ exact (says_apart v a b ap_ri H1 H2) | exact (says_apart v a b ap_ro H1 H2) | exact (says_apart v a b ap_rc H1 H2)
          | exact (says_apart v a b ap_rt H1 H2) | exact (says_apart v a b ap_io H1 H2) | exact (says_apart v a b ap_ic H1 H2)
          | exact (says_apart v a b ap_it H1 H2) | exact (says_apart v a b ap_oc H1 H2) | exact (says_apart v a b ap_ot H1 H2)
          | exact (says_apart v a b ap_ct H1 H2) | exact (says_apart v a b ap_ls H1 H2) | exact (says_apart v a b ap_lh H1 H2)
          | exact (says_apart v a b ap_sh H1 H2) ]
  end.
(** One word test. *)
Ltac test H i w :=
  match type of H with values ?mem ?m = Some ?vs =>
  let b := fresh "b" in let E := fresh "E" in let Hb := fresh "Hb" in
  destruct (compare_spec' mem m vs i _ w H eq_refl) as (b & E & Hb); change (Z.of_nat 0) with 0 in E; change (Z.of_nat 2) with 2 in E;
  rewrite E; clear E; cbn [obind]; destruct b;
  cbn iota in Hb end.

Definition outcome_spec (c : ctx) (m : msg) (vs : list value) (o : outcome (option answer_msg)) : Prop :=
  (cut_short c vs /\ o = AssertFail) \/
  (~ cut_short c vs /\ exists r, o = Ok r /\ forall t v, r = Some (t, v) <-> t = m_ts m /\ answer c (m_ts m) vs v).

Ltac no_cut := let v0 := fresh in let n0 := fresh in let t0 := fresh in let E0 := fresh in let S0 := fresh in let N0 := fresh in intros [(v0 & E0 & S0)|(v0 & n0 & t0 & E0 & S0 & N0)]; inversion E0; subst; first [contradiction | clash | congruence | idtac].
Ltac yes := right; split; [no_cut| eexists; split; [reflexivity|]; intros tt1 vv1; split;
  [let X := fresh in intro X; injection X as <- <-; split; [reflexivity|econstructor; eassumption]
  |let A := fresh in intros [-> A]; inversion A; subst; first [reflexivity | contradiction | clash | idtac]]].
Ltac no := right; split; [no_cut| eexists; split; [reflexivity|]; intros tt1 vv1; split;
  [discriminate | let A := fresh in intros [-> A]; inversion A; subst; first [contradiction | clash | idtac]]].

Local Opaque of_int narrow hv_string_to_hash word.
Lemma system_all c mem m vs : values mem m = Some vs -> outcome_spec c m vs (cSystem_onMessage c mem m).
Proof.
  intro H. destruct vs as [|v vs].
  { apply values_spec in H as (Hn & H). apply values_of_length in H. rewrite firstn_length in H. unfold zlen in Hn. cbn in H. lia. }
  unfold cSystem_onMessage, send.
  test H 0%nat "samplerate"%string; [solve [yes]|].
  test H 0%nat "numInputChannels"%string; [solve [yes]|].
  test H 0%nat "numOutputChannels"%string; [solve [yes]|].
  test H 0%nat "currentTime"%string; [solve [yes]|].
  test H 0%nat "table"%string; [|solve [no]].
  destruct vs as [|n vs].
  { left. split; [left; exists v; auto|]. rewrite (getHash_end mem m _ 1 H ltac:(cbn; lia) : msg_getHash mem m 1 = _); reflexivity. }
  rewrite (getHash_spec mem m _ 1 n H eq_refl : msg_getHash mem m 1 = _). cbn [obind].
  destruct (hv_table_get c (key n)) as [t|] eqn:Et.
  2:{ no; unfold names in *; congruence. }
  destruct vs as [|q vs].
  { left. split; [right; exists v, n, t; auto|]. rewrite (compare_end mem m _ 2 "length" H ltac:(cbn; lia) : msg_compareSymbol mem m 2 _ = _); reflexivity. }
  assert (Nt : forall t', names c n t' -> t' = t) by (unfold names; congruence).
  assert (N : names c n t) by exact Et.
  test H 2%nat "length"%string; [solve [yes; match goal with X : names c n _ |- _ => apply Nt in X; subst; reflexivity end]|].
  test H 2%nat "size"%string; [solve [yes; match goal with X : names c n _ |- _ => apply Nt in X; subst; reflexivity end]|].
  test H 2%nat "head"%string; [solve [yes; match goal with X : names c n ?x |- context [?x] => apply Nt in X; subst; reflexivity end]|].
  no.
Qed.
