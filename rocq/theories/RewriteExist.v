(** Every patch without feedback has signals that satisfy its equations. *)
From Verif Require Import GraphModel GraphSpec RewriteModel RewriteSpec.

Section Exist.
Variables (g : patch) (root depth n : nat) (level rank : nat -> nat).
Hypothesis FR : fresh_from g n.
Hypothesis WF : reduced g root depth level rank.

(** [o]'s signals are computed from those of [p]. *)
Definition needs (p o : nat) : Prop := exists c q, In c g.(conns) /\ c.(c_sig) = true /\ c.(c_from) = p /\ c.(c_to) = q /\
  match g.(kind_of) o with
  | Leaf _ _ _ _ => q = o
  | Inlet _ => exists objs il ol, g.(kind_of) q = Graph objs il ol /\ In o il
  | Outlet => False
  | Graph _ _ ol => In q ol
  end.
Definition fed (G : nat) : Prop := forall c, In c g.(conns) -> c.(c_to) = G -> Acc needs c.(c_from).

Lemma siblings c G : In c g.(conns) -> inside g c.(c_to) G -> inside g c.(c_from) G.
Proof. intros Hc HG. destruct (wf_conn _ _ _ _ _ WF c Hc) as [(G' & H1 & H2) _]. now rewrite (wf_parent _ _ _ _ _ WF _ _ _ HG H2). Qed.
Lemma inlet_in G objs il ol o : g.(kind_of) G = Graph objs il ol -> In o il -> inside g o G.
Proof. intros E H. unfold inside. rewrite E. apply (wf_inlets _ _ _ _ _ WF G objs il ol E) in H. tauto. Qed.
Lemma outlet_in G objs il ol o : g.(kind_of) G = Graph objs il ol -> In o ol -> inside g o G.
Proof. intros E H. unfold inside. rewrite E. apply (wf_inlets _ _ _ _ _ WF G objs il ol E) in H. tauto. Qed.

Lemma below k : forall G, depth - level G <= k -> fed G -> forall o, inside g o G -> Acc needs o.
Proof.
  induction k as [ | k IHk]; intros G Hk HG.
  - intros o Ho. destruct (wf_level _ _ _ _ _ WF o G Ho). lia.
  - enough (H : forall r o, rank o < r -> inside g o G -> Acc needs o) by (intros o; apply (H (S (rank o))); lia).
    induction r as [ | r IHr]; intros o Hr Ho; [lia | ]. constructor. intros p (c & q & Hc & S & <- & <- & Hq).
    destruct (kind_of g o) as [sg ins outs d | a | | objs il ol] eqn:Ek.
    + subst o. pose proof (wf_rank _ _ _ _ _ WF c Hc). apply IHr; [lia | ]. now apply siblings.
    + destruct Hq as (objs & il & ol & Eq & Hin). assert (E : c_to c = G) by (apply (wf_parent _ _ _ _ _ WF o); [eapply inlet_in; eauto | exact Ho]). now apply HG.
    + destruct Hq.
    + destruct (wf_level _ _ _ _ _ WF o G Ho). apply (IHk o); [lia | | ].
      * intros c' Hc' Ht. pose proof (wf_rank _ _ _ _ _ WF c' Hc') as R. rewrite Ht in R. apply IHr; [lia | ]. apply siblings; [exact Hc' | now rewrite Ht].
      * apply siblings; [exact Hc | ]. eapply outlet_in; eauto.
Qed.
Lemma fed_all k : forall G, level G <= k -> fed G.
Proof.
  induction k as [ | k IH]; intros G Hk c Hc Ht; destruct (wf_conn _ _ _ _ _ WF c Hc) as [(P & H1 & H2) _]; rewrite Ht in H2;
    destruct (wf_level _ _ _ _ _ WF G P H2) as [L _]; [lia | ].
  apply (below (depth - level P) P); [lia | apply IH; lia | exact H1].
Qed.
Lemma needs_acc o : Acc needs o.
Proof.
  constructor. intros p (c & q & Hc & S & <- & <- & Hq).
  destruct (wf_conn _ _ _ _ _ WF c Hc) as [(P & H1 & H2) _]. apply (below (depth - level P) P); [lia | apply (fed_all (level P)); lia | exact H1].
Qed.

Context {A : Type} (add : A -> A -> A) (zero : A) (inp : nat -> A) (f : nat -> list A -> nat -> A).
Fixpoint index (o : nat) (l : list nat) : option nat :=
  match l with [] => None | x :: l => if Nat.eqb x o then Some 0 else option_map S (index o l) end.
Lemma index_some o l : In o l -> exists i, index o l = Some i /\ nth_error l i = Some o.
Proof.
  induction l as [ | x l IH]; intros H; [destruct H | ]. cbn. destruct (Nat.eqb_spec x o) as [-> | N]; [exists 0; auto | ].
  destruct IH as (i & -> & E); [destruct H; congruence | ]. exists (S i). auto.
Qed.
Definition place (o G : nat) : option (nat * nat) :=
  match g.(kind_of) G with Graph _ il _ => option_map (pair G) (index o il) | _ => None end.
Fixpoint search (o k : nat) : option (nat * nat) :=
  match k with O => None | S k => match place o k with Some p => Some p | None => search o k end end.
Lemma index_nth o l i : index o l = Some i -> nth_error l i = Some o.
Proof.
  revert i. induction l as [ | x l IH]; intros i H; [discriminate | ]. cbn in H. destruct (Nat.eqb_spec x o) as [-> | N]; [injection H as <-; reflexivity | ].
  destruct (index o l) as [j | ]; [ | discriminate]. injection H as <-. cbn. now apply IH.
Qed.
Lemma search_sound o k G i : search o k = Some (G, i) -> exists objs il ol, g.(kind_of) G = Graph objs il ol /\ nth_error il i = Some o.
Proof.
  induction k as [ | k IH]; [discriminate | ]. cbn. destruct (place o k) as [p | ] eqn:E; [ | exact IH]. intros H. injection H as ->.
  unfold place in E. destruct (kind_of g k) as [ | | | objs il ol] eqn:Ek; try discriminate. destruct (index o il) as [j | ] eqn:Ei; [ | discriminate].
  injection E as <- <-. exists objs, il, ol. split; [exact Ek | ]. now apply index_nth.
Qed.
Lemma search_complete o k G objs il ol i : G < k -> g.(kind_of) G = Graph objs il ol -> nth_error il i = Some o -> exists p, search o k = Some p.
Proof.
  intros L E Hi. induction k as [ | k IH]; [lia | ]. cbn. destruct (place o k) as [p | ] eqn:Ep; [eauto | ].
  destruct (Nat.eq_dec G k) as [-> | N]; [ | apply IH; lia]. unfold place in Ep. rewrite E in Ep.
  apply nth_error_In in Hi. destruct (index_some o il Hi) as (j & X & _). rewrite X in Ep. discriminate.
Qed.
Definition step (V : nat -> nat -> A) (o j : nat) : A :=
  match g.(kind_of) o with
  | Leaf _ ins _ _ => f o (map (inlet_sum add zero g V o) (sig_lets ins)) j
  | Inlet (Some ch) => inp ch
  | Inlet None => match search o n with Some (G, i) => inlet_sum add zero g V G i | None => zero end
  | Outlet => zero
  | Graph _ _ ol => match nth_error ol j with Some q => inlet_sum add zero g V q 0 | None => zero end
  end.
Fixpoint eval (k : nat) : nat -> nat -> A := match k with O => fun _ _ => zero | S k => step (eval k) end.

Lemma sum_ext V V' o i : (forall c, In c g.(conns) -> c.(c_sig) = true -> c.(c_to) = o -> forall j, V c.(c_from) j = V' c.(c_from) j) ->
  inlet_sum add zero g V o i = inlet_sum add zero g V' o i.
Proof.
  intros H. unfold inlet_sum. replace (map (fun c => V (c_from c) (c_out c)) (signals (at_inlet g o i))) with (map (fun c => V' (c_from c) (c_out c)) (signals (at_inlet g o i))); [reflexivity | ].
  apply map_ext_in. intros c Hc. apply filter_In in Hc as [Hc S]. apply filter_In in Hc as [Hc T]. apply andb_true_iff in T as [T _]. apply Nat.eqb_eq in T. symmetry. auto.
Qed.
Lemma step_ext V V' o : (forall p, needs p o -> forall j, V p j = V' p j) -> forall j, step V o j = step V' o j.
Proof.
  intros H j. unfold step. destruct (kind_of g o) as [sg ins outs d | [ch | ] | | objs il ol] eqn:Ek; try reflexivity.
  - f_equal. apply map_ext. intros i. apply sum_ext. intros c Hc S T. apply H. exists c, o. rewrite Ek. auto.
  - destruct (search o n) as [[G i] | ] eqn:Es; [ | reflexivity]. destruct (search_sound _ _ _ _ Es) as (objs & il & ol & Eg & Hi). apply nth_error_In in Hi.
    apply sum_ext. intros c Hc S T. apply H. exists c, G. rewrite Ek. repeat (split; [assumption || reflexivity | ]). eauto.
  - destruct (nth_error ol j) as [q | ] eqn:Eq; [ | reflexivity]. apply nth_error_In in Eq. apply sum_ext. intros c Hc S T. apply H. exists c, q. rewrite Ek. auto.
Qed.
Lemma settles o : exists k, forall m, k <= m -> forall j, eval m o j = eval k o j.
Proof.
  induction (needs_acc o) as [o _ IH].
  assert (H : forall l, exists k, forall p, In p l -> needs p o -> forall m, k <= m -> forall j, eval m p j = eval k p j).
  { induction l as [ | p l [k Hk]]; [exists 0; intros p [] | ].
    assert (D : (exists k1, needs p o -> forall m, k1 <= m -> forall j, eval m p j = eval k1 p j)).
    { assert (Dec : needs p o \/ ~ needs p o).
      { assert (Dq : forall q, {match kind_of g o with Leaf _ _ _ _ => q = o | Inlet _ => exists objs il ol, kind_of g q = Graph objs il ol /\ In o il | Outlet => False | Graph _ _ ol => In q ol end} +
                               {~ match kind_of g o with Leaf _ _ _ _ => q = o | Inlet _ => exists objs il ol, kind_of g q = Graph objs il ol /\ In o il | Outlet => False | Graph _ _ ol => In q ol end}).
        { intros q. destruct (kind_of g o) as [sg ins outs d | a | | objs il ol]; [apply Nat.eq_dec | | now right | apply (in_dec Nat.eq_dec)].
          destruct (kind_of g q) as [ | | | objs il ol]; try (right; intros (? & ? & ? & X & _); discriminate).
          destruct (in_dec Nat.eq_dec o il) as [Y | Y]; [left; eauto | right; intros (? & ? & ? & X & Z)]. injection X as <- <- <-. contradiction. }
        destruct (Exists_dec (fun c => c_sig c = true /\ c_from c = p /\
            match kind_of g o with Leaf _ _ _ _ => c_to c = o | Inlet _ => exists objs il ol, kind_of g (c_to c) = Graph objs il ol /\ In o il | Outlet => False | Graph _ _ ol => In (c_to c) ol end) (conns g)) as [X | X].
        - intros c. destruct (Bool.bool_dec (c_sig c) true) as [S | S]; [ | right; tauto]. destruct (Nat.eq_dec (c_from c) p) as [P | P]; [ | right; tauto].
          destruct (Dq (c_to c)) as [Q | Q]; [left; auto | right; tauto].
        - left. apply Exists_exists in X as (c & Hc & S & P & Q). exists c, (c_to c). auto.
        - right. intros (c & q & Hc & S & P & T & Q). apply X. apply Exists_exists. exists c. subst q. auto. }
      destruct Dec as [Dy | Dn]; [destruct (IH p Dy) as [k1 Hk1]; exists k1; auto | exists 0; intros; contradiction]. }
    destruct D as [k1 Hk1]. exists (Nat.max k k1). intros p' [<- | Hp] N m Hm j.
    - rewrite (Hk1 N m) by lia. symmetry. apply (Hk1 N). lia.
    - rewrite (Hk p' Hp N m) by lia. symmetry. apply (Hk p' Hp N). lia. }
  destruct (H (map c_from g.(conns))) as [k Hk]. exists (S k). intros [ | m] Hm j; [lia | ]. cbn [eval]. apply step_ext. intros p Np j'. apply Hk; [ | exact Np | lia].
  destruct Np as (c & q & Hc & _ & <- & _). now apply in_map.
Qed.

Lemma solution_exists : exists V, solution add zero inp g f V.
Proof.
  assert (H : forall l, exists k, forall o, In o l -> forall m, k <= m -> forall j, eval m o j = eval k o j).
  { induction l as [ | o l [k Hk]]; [exists 0; intros o [] | ]. destruct (settles o) as [k1 Hk1]. exists (Nat.max k k1).
    intros o' [<- | Ho] m Hm j; [rewrite (Hk1 m) by lia; symmetry; apply Hk1; lia | rewrite (Hk o' Ho m) by lia; symmetry; apply Hk; auto; lia]. }
  destruct (H (seq 0 n)) as [k Hk].
  assert (E : forall o j, eval (S k) o j = eval (S (S k)) o j).
  { intros o j. destruct (Nat.lt_ge_cases o n) as [L | L].
    - assert (I : In o (seq 0 n)) by (apply in_seq; lia). rewrite (Hk o I (S k)), (Hk o I (S (S k))) by lia. reflexivity.
    - cbn [eval]. unfold step. now rewrite (fr_kind _ _ FR o L). }
  exists (eval (S k)).
  assert (St : forall o j, eval (S k) o j = step (eval (S k)) o j) by (intros; rewrite E; reflexivity).
  generalize dependent (eval (S k)). intros V E St. clear E. split; [ | split; [ | split]].
  - intros o sg ins outs Ek j. rewrite (St o j). unfold step. now rewrite Ek.
  - intros o ch Ek. rewrite (St o 0). unfold step. now rewrite Ek.
  - intros G objs il ol i o Eg Hi Ek. rewrite (St o 0). unfold step. rewrite Ek.
    assert (LG : G < n). { destruct (Nat.lt_ge_cases G n) as [ | L]; [assumption | ]. rewrite (fr_kind _ _ FR G L) in Eg. discriminate. }
    destruct (search_complete o n G objs il ol i LG Eg Hi) as [[G' i'] Es]. rewrite Es.
    destruct (search_sound _ _ _ _ Es) as (objs' & il' & ol' & Eg' & Hi').
    assert (G' = G) as -> by (apply (wf_parent _ _ _ _ _ WF o); [eapply inlet_in; [exact Eg' | eapply nth_error_In; eauto] | eapply inlet_in; [exact Eg | eapply nth_error_In; eauto]]).
    rewrite Eg in Eg'. injection Eg' as <- <- <-. destruct (wf_inlets _ _ _ _ _ WF G objs il ol Eg) as (ND & _).
    replace i' with i; [reflexivity | ]. apply (proj1 (NoDup_nth_error il) ND); [apply nth_error_Some; congruence | congruence].
  - intros G objs il ol j o Eg Hj. rewrite (St G j). unfold step. now rewrite Eg, Hj.
Qed.
End Exist.
