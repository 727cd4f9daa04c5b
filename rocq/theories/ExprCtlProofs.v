From Verif Require Import ExprCtlSpec.
From Coq Require Import ZifyBool.

Lemma upd_ok l : forall i v, (i < length l)%nat -> exists l', upd_arg l i v = Some l' /\ length l' = length l /\
  forall j d, nth j l' d = if (j =? i)%nat then v else nth j l d.
Proof.
  induction l as [| x l IH]; intros i v H; [cbn in H; lia|]. cbn [length] in H. destruct i as [| i]; cbn [upd_arg].
  - eexists; split; [reflexivity|]. split; [reflexivity|]. intros [| j] d; reflexivity.
  - destruct (IH i v) as (l' & -> & L & N); [lia|]. eexists; split; [reflexivity|]. split; [cbn [length]; lia|].
    intros [| j] d; [reflexivity|]. cbn [nth Nat.eqb]. apply N.
Qed.
Lemma get_message e i : (i < length (e_els e))%nat -> exists x, nth_error (e_els e) i = Some x /\ get_elem (message e) (Z.of_nat i) = Ok x.
Proof.
  intros H. destruct (nth_error (e_els e) i) as [x|] eqn:E; [| apply nth_error_None in E; lia]. exists x. split; [reflexivity|].
  unfold get_elem, message. cbn [m_n m_el]. unfold zlen. replace (Z.of_nat i <? Z.of_nat (length (e_els e))) with true by lia.
  replace (0 <=? Z.of_nat i) with true by lia. rewrite Nat2Z.id. erewrite map_nth_error by exact E. reflexivity.
Qed.
Lemma test_message f e i : test_elem f (message e) (Z.of_nat i) = Ok (match nth_error (e_els e) i with Some x => f x | None => false end).
Proof.
  unfold test_elem. cbn [message m_n]. unfold zlen. destruct (Nat.ltb_spec i (length (e_els e))) as [L | L].
  - replace (Z.of_nat i <? _) with true by lia. destruct (get_message e i L) as (x & E & G). rewrite E, G. reflexivity.
  - replace (Z.of_nat i <? _) with false by lia. destruct (nth_error (e_els e) i) eqn:E; [|reflexivity].
    assert (nth_error (e_els e) i <> None) by congruence. apply nth_error_Some in H. lia.
Qed.
Lemma store_elem_ok args e (i : nat) j : length args = 100%nat -> (i < 100)%nat ->
  exists args', store_elem args (message e) (Z.of_nat i) (Z.of_nat j) = Ok args' /\ length args' = 100%nat /\
    forall k d, nth k args' d = match (if (k =? i)%nat then number_at (e_els e) j else None) with Some v => v | None => nth k args d end.
Proof.
  intros L I. unfold store_elem. rewrite test_message. cbn [obind]. unfold number_at.
  destruct (nth_error (e_els e) j) as [x|] eqn:E.
  - assert (J : (j < length (e_els e))%nat) by (apply nth_error_Some; congruence).
    destruct (get_message e j J) as (x' & E' & G). rewrite E in E'. injection E' as <-.
    destruct x; cbn [is_f]; try (exists args; split; [reflexivity|]; split; [exact L|]; intros k d; now destruct (k =? i)%nat).
    rewrite G. cbn [obind]. unfold store_arg. replace (Z.of_nat i <? 0) with false by lia. rewrite Nat2Z.id.
    destruct (upd_ok args i bits) as (l' & -> & L' & N); [lia|]. exists l'. split; [reflexivity|]. split; [lia|].
    intros k d. rewrite N. now destruct (k =? i)%nat.
  - exists args; split; [reflexivity|]; split; [exact L|]; intros k d; now destruct (k =? i)%nat.
Qed.
Lemma store_all_ok e n : (n <= 100)%nat -> forall args, length args = 100%nat ->
  exists args', store_all n args (message e) = Ok args' /\ length args' = 100%nat /\
    forall k d, nth k args' d = match (if (k <? n)%nat then number_at (e_els e) k else None) with Some v => v | None => nth k args d end.
Proof.
  induction n as [| n IH]; intros H args L; cbn [store_all].
  - exists args. split; [reflexivity|]. split; [exact L|]. reflexivity.
  - destruct (store_elem_ok args e n n L) as (a1 & -> & L1 & N1); [lia|]. cbn [obind].
    destruct (IH ltac:(lia) a1 L1) as (a2 & -> & L2 & N2). exists a2. split; [reflexivity|]. split; [exact L2|].
    intros k d. rewrite N2, N1. destruct (Nat.eqb_spec k n) as [-> | NE].
    + replace (n <? n)%nat with false by lia. replace (n <? S n)%nat with true by lia. reflexivity.
    + destruct (Nat.ltb_spec k n); [replace (k <? S n)%nat with true by lia; reflexivity | replace (k <? S n)%nat with false by lia; reflexivity].
Qed.
Definition holds (args : list Z) (past : list event) : Prop := length args = 100%nat /\ forall i d, (i < 100)%nat -> nth i args d = latest past i.
Lemma holds_values args past : holds args past -> args = values past.
Proof.
  intros [L H]. unfold values. apply (nth_ext _ _ 0 (latest past 0)); [now rewrite map_length, seq_length|].
  intros i Hi. rewrite map_nth, seq_nth by lia. apply H. lia.
Qed.
Lemma holds_step args e past args' : holds args past -> length args' = 100%nat ->
  (forall k d, (k < 100)%nat -> nth k args' d = match gives e k with Some v => v | None => nth k args d end) -> holds args' (e :: past).
Proof. intros [L H] L' N. split; [exact L'|]. intros i d I. rewrite N by exact I. cbn [latest]. destruct (gives e i); [reflexivity | now apply H]. Qed.
Lemma receive_ok eval es : forall args past, Forall (fun e => 0 <= e_inlet e < 100) es -> holds args past ->
  exists args', receive eval args es = Ok (args', answers eval past es).
Proof.
  induction es as [| e es IH]; intros args past F H; cbn [receive answers]; [eauto|].
  inversion_clear F as [| ? ? R F']. assert (L : length args = 100%nat) by (now destruct H).
  assert (ST : exists a1, cExpr_onMessage eval args (e_inlet e) (message e) = Ok (a1, if e_inlet e =? 0 then [(e_ts e, eval a1)] else []) /\ holds a1 (e :: past)).
  { unfold cExpr_onMessage. destruct (Z.eqb_spec (e_inlet e) 0) as [E | E].
    - change 0 with (Z.of_nat 0) at 1. rewrite test_message. cbn [obind].
      destruct (e_els e) as [| x els] eqn:EL.
      + cbn [nth_error message m_n]. rewrite EL. change (Z.to_nat (Z.min (zlen []) 100)) with O. cbn [store_all obind].
        exists args. split; [reflexivity|]. apply (holds_step args e past); auto. intros k d K. unfold gives. rewrite E, EL. cbn.
        unfold number_at. now destruct k.
      + cbn [nth_error]. destruct (is_b x) eqn:B.
        * cbn [obind]. exists args. split; [reflexivity|]. apply (holds_step args e past); auto. intros k d K. unfold gives. rewrite E, EL. cbn.
          now destruct x.
        * destruct (store_all_ok e (Z.to_nat (Z.min (zlen (x :: els)) 100)) ltac:(lia) args L) as (a1 & A & L1 & N1).
          replace (m_n (message e)) with (zlen (x :: els)) by (unfold message; cbn [m_n]; now rewrite EL).
          rewrite A. cbn [obind]. exists a1. split; [reflexivity|]. apply (holds_step args e past); auto.
          intros k d K. rewrite N1. unfold gives. rewrite E, EL. change (0 =? 0) with true. cbv iota.
          replace (match x :: els with Bang :: _ => None | els0 => number_at els0 k end) with (number_at (x :: els) k) by (now destruct x).
          destruct (Nat.ltb_spec k (Z.to_nat (Z.min (zlen (x :: els)) 100))); [reflexivity|].
          unfold number_at. destruct (nth_error (x :: els) k) eqn:NE; [|reflexivity].
          assert (nth_error (x :: els) k <> None) by congruence. apply nth_error_Some in H1. unfold zlen in H0. lia.
    - destruct (store_elem_ok args e (Z.to_nat (e_inlet e)) 0 L) as (a1 & A & L1 & N1); [lia|].
      rewrite Z2Nat.id in A by lia. change (Z.of_nat 0) with 0 in A. rewrite A. cbn [obind]. exists a1. split; [reflexivity|].
      apply (holds_step args e past); auto. intros k d K. rewrite N1. unfold gives.
      replace (e_inlet e =? 0) with false by lia. destruct (Nat.eqb_spec k (Z.to_nat (e_inlet e))).
      + replace (e_inlet e =? Z.of_nat k) with true by lia. reflexivity.
      + replace (e_inlet e =? Z.of_nat k) with false by lia. reflexivity. }
  destruct ST as (a1 & -> & H1). cbn [obind fst snd]. destruct (IH a1 (e :: past) F' H1) as (a2 & ->). cbn [obind fst snd].
  rewrite (holds_values a1 (e :: past) H1). eauto.
Qed.
Lemma init_holds : holds cExpr_init [].
Proof. split; [apply repeat_length|]. intros i d I. cbn [latest]. unfold cExpr_init. rewrite (nth_indep _ d 0) by (rewrite repeat_length; exact I). apply nth_repeat. Qed.
