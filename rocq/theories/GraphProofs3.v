(** Running the assigned process list. *)
From Coq Require Import Permutation.
From Verif Require Import GraphModel GraphSpec OrderProofs BufferProofs GraphProofs GraphProofs2.
Local Open Scope Z_scope.

Definition inlets_of (g : patch) (G : nat) : list nat := match g.(kind_of) G with Graph _ il _ => il | _ => [] end.
Definition outlets_of (g : patch) (G : nat) : list nat := match g.(kind_of) G with Graph _ _ ol => ol | _ => [] end.
(** The objects whose outlets are settled by a visit, and the objects whose inlets it reads *)
Definition keys (g : patch) (e : event) : list nat :=
  match e with Proc o => [o] | Enter G => inlets_of g G | Exit G => [G] end.
Definition consumers (g : patch) (e : event) : list nat :=
  match e with Proc o => [o] | Enter G => [G] | Exit G => outlets_of g G end.
Fixpoint valid (g : patch) (K : list nat) (es : list event) : Prop :=
  match es with
  | [] => True
  | e :: es' =>
      (forall c, In c g.(conns) -> c.(c_sig) = true -> In c.(c_to) (consumers g e) -> In c.(c_from) K) /\ valid g (keys g e ++ K) es'
  end.
Definition typed (g : patch) (e : event) : Prop :=
  match e with
  | Proc o => exists ins outs dac, g.(kind_of) o = Leaf true ins outs dac
  | Enter G | Exit G => exists objs il ol, g.(kind_of) G = Graph objs il ol
  end.

Section Run.
Context {A : Type} (g : patch) (f : nat -> list A -> nat -> A) (zero : A) (inp : nat -> A).
Context (root depth : nat) (level rank : nat -> nat).
Hypothesis WF : well_formed g root depth level rank.
Notation value := (outlet_value g f zero inp).
Notation ivalue := (inlet_value g f zero inp).
Notation Inv := (Inv g f zero inp).

Notation memb x l := (existsb (Nat.eqb x) l).
Definition pendings (K C : list nat) : list conn :=
  filter (fun c => c.(c_sig) && memb c.(c_from) K && negb (memb c.(c_to) C)) g.(conns).
Lemma in_pendings K C c : In c (pendings K C) <-> In c g.(conns) /\ c.(c_sig) = true /\ In c.(c_from) K /\ ~ In c.(c_to) C.
Proof.
  unfold pendings. rewrite filter_In, !andb_true_iff, negb_true_iff, existsb_eqb, existsb_eqb_false. tauto.
Qed.

Lemma signals_nodup : NoDup (signals g.(conns)).
Proof.
  pose proof (wf_single _ _ _ _ _ WF) as S. unfold at_inlet in S. revert S. generalize (conns g) as l.
  induction l as [| c l IH]; intros S; cbn; [constructor|].
  assert (S' : forall o i, (length (signals (filter (fun c => Nat.eqb (c_to c) o && Nat.eqb (c_in c) i) l)) <= 1)%nat).
  { intros o i. specialize (S o i). cbn [filter] in S. destruct (Nat.eqb (c_to c) o && Nat.eqb (c_in c) i); [|exact S].
    unfold signals in *. cbn [filter] in S. destruct (c_sig c); cbn in S; lia. }
  destruct (c_sig c) eqn:Sg; [|now apply IH]. constructor; [|now apply IH].
  intros H. apply in_signals in H as [H _]. specialize (S (c_to c) (c_in c)). cbn [filter] in S.
  rewrite !Nat.eqb_refl in S. cbn [andb] in S. unfold signals in S. cbn [filter] in S. rewrite Sg in S. cbn [length] in S.
  assert (In c (filter c_sig (filter (fun c0 => Nat.eqb (c_to c0) (c_to c) && Nat.eqb (c_in c0) (c_in c)) l))) as X.
  { apply filter_In. split; [|exact Sg]. apply filter_In. now rewrite !Nat.eqb_refl. }
  destruct (filter c_sig _) as [| y ys]; [destruct X | cbn in S; lia].
Qed.
Lemma filter_filter {X} (p q : X -> bool) l : filter p (filter q l) = filter (fun x => q x && p x) l.
Proof. induction l as [| x l IH]; cbn; [reflexivity|]. destruct (q x); cbn; [destruct (p x)|]; rewrite IH; reflexivity. Qed.
Lemma NoDup_filter_sig (p : conn -> bool) : (forall c, p c = true -> c.(c_sig) = true) -> NoDup (filter p g.(conns)).
Proof.
  intros H. replace (filter p (conns g)) with (filter p (signals (conns g))).
  - apply NoDup_filter, signals_nodup.
  - unfold signals. rewrite filter_filter. apply filter_ext. intros c.
    destruct (p c) eqn:E; [rewrite (H c E); reflexivity | apply andb_false_r].
Qed.
Lemma pendings_nodup K C : NoDup (pendings K C).
Proof. apply NoDup_filter_sig. intros c H. apply andb_true_iff in H as [H _]. apply andb_true_iff in H. tauto. Qed.
Lemma signals_at_inlet_nodup o i : NoDup (signals (at_inlet g o i)).
Proof.
  unfold signals, at_inlet. rewrite filter_filter. apply NoDup_filter_sig. intros c H. apply andb_true_iff in H. tauto.
Qed.
Lemma signals_at_outlet_nodup o i : NoDup (signals (at_outlet g o i)).
Proof.
  unfold signals, at_outlet. rewrite filter_filter. apply NoDup_filter_sig. intros c H. apply andb_true_iff in H. tauto.
Qed.

(** What one visit does to the pending connections *)
Definition rest (K C Cs : list nat) : list conn := filter (fun c => negb (memb c.(c_to) Cs)) (pendings K C).
Lemma in_rest K C Cs c : In c (rest K C Cs) <-> In c g.(conns) /\ c.(c_sig) = true /\ In c.(c_from) K /\ ~ In c.(c_to) C /\ ~ In c.(c_to) Cs.
Proof. unfold rest. rewrite filter_In, in_pendings, negb_true_iff, existsb_eqb_false. tauto. Qed.

Lemma pend_in K C Cs ins :
  (forall c, In c g.(conns) -> c.(c_sig) = true -> In c.(c_to) Cs -> In c.(c_from) K) ->
  (forall x, In x Cs -> ~ In x C) ->
  NoDup ins -> (forall c, In c ins <-> In c g.(conns) /\ c.(c_sig) = true /\ In c.(c_to) Cs) ->
  Permutation (pendings K C) (ins ++ rest K C Cs).
Proof.
  intros H2 H4 N M. apply NoDup_Permutation.
  - apply pendings_nodup.
  - apply NoDup_app_intro; [exact N | apply NoDup_filter, pendings_nodup |].
    intros c Hc Hr. apply M in Hc. apply in_rest in Hr. tauto.
  - intros c. rewrite in_pendings, in_app_iff, in_rest, M.
    destruct (in_dec Nat.eq_dec (c_to c) Cs) as [Hi | Hi]; [|tauto].
    split; [tauto|]. intros [(X1 & X2 & X3) | X]; [|tauto]. repeat split; auto.
Qed.
Lemma pend_out K C Ks Cs out :
  (forall c, In c g.(conns) -> c.(c_sig) = true -> In c.(c_to) C -> In c.(c_from) K) ->
  (forall c, In c g.(conns) -> c.(c_sig) = true -> In c.(c_to) Cs -> In c.(c_from) K) ->
  (forall x, In x Ks -> ~ In x K) ->
  NoDup out -> (forall c, In c out <-> In c g.(conns) /\ c.(c_sig) = true /\ In c.(c_from) Ks) ->
  Permutation (out ++ rest K C Cs) (pendings (Ks ++ K) (Cs ++ C)).
Proof.
  intros H1 H2 H3 N M. apply NoDup_Permutation.
  - apply NoDup_app_intro; [exact N | apply NoDup_filter, pendings_nodup |].
    intros c Hc Hr. apply M in Hc as (_ & _ & Hc). apply in_rest in Hr as (_ & _ & Hr & _). now apply (H3 _ Hc).
  - apply pendings_nodup.
  - intros c. rewrite in_app_iff, in_rest, M, in_pendings, !in_app_iff. split.
    + intros [(X1 & X2 & X3) | X]; [|tauto]. repeat split; auto. intros [X | X].
      * exact (H3 _ X3 (H2 c X1 X2 X)).
      * exact (H3 _ X3 (H1 c X1 X2 X)).
    + intros (X1 & X2 & [X3 | X3] & X4); [left; tauto | right; tauto].
Qed.

(** objects not visited yet have their initial buffers *)
Definition untouched (K C : list nat) (s : bstate) : Prop :=
  (forall o j, ~ In o K -> s.(outb) o j = (init_state g).(outb) o j) /\
  (forall o i, ~ In o C -> s.(inb) o i = (init_state g).(inb) o i).

Lemma signals_fed o i c : signals (at_inlet g o i) = [c] -> fed_by g o i c.
Proof.
  intros E. assert (In c (signals (at_inlet g o i))) as H by (rewrite E; now left).
  apply in_signals in H as [H S]. apply in_at_inlet in H. unfold fed_by. tauto.
Qed.
Lemma signals_open o i : signals (at_inlet g o i) = [] -> forall c, ~ fed_by g o i c.
Proof.
  intros E c (H1 & H2 & H3 & H4). assert (In c (signals (at_inlet g o i))) as H by (apply in_signals; rewrite in_at_inlet; auto).
  rewrite E in H. destruct H.
Qed.
Lemma sig_lets_lt ins i : In i (sig_lets ins) -> (i < length ins)%nat.
Proof.
  unfold sig_lets. intros H. apply in_map_iff in H as ((j, t) & <- & H). apply filter_In in H as [H _].
  apply number_in in H. apply nth_error_Some. cbn. congruence.
Qed.

(** The frame of one visit *)
Definition framed (e : event) (s s' : bstate) : Prop :=
  known s.(pl) s'.(pl) /\
  (forall o j, ~ In o (keys g e) -> s'.(outb) o j = s.(outb) o j) /\
  (forall o i, ~ In o (consumers g e) -> s'.(inb) o i = s.(inb) o i).
Definition known_instr (P : pools) (i : instr) : Prop :=
  (forall t n, In (BTmp t n) (i.(i_in) ++ map snd i.(i_out)) -> refs P (BTmp t n) <> None) /\ NoDup (map snd i.(i_out)).

Lemma untouched_step K C s e s' : untouched K C s -> framed e s s' -> untouched (keys g e ++ K) (consumers g e ++ C) s'.
Proof.
  intros [U1 U2] (_ & F1 & F2). split.
  - intros o j H. rewrite in_app_iff in H. rewrite F1 by tauto. apply U1. tauto.
  - intros o i H. rewrite in_app_iff in H. rewrite F2 by tauto. apply U2. tauto.
Qed.

Lemma map_fst_sig_lets outs : map fst (filter is_sig (number outs)) = sig_lets outs.
Proof. reflexivity. Qed.

Section Step.
Variables (K C : list nat) (s : bstate) (m : @mem A).
Hypothesis H1 : forall c, In c g.(conns) -> c.(c_sig) = true -> In c.(c_to) C -> In c.(c_from) K.
Hypothesis U : untouched K C s.
Hypothesis I : Inv (pendings K C) s m.

Lemma enter_ok G objs il ol : g.(kind_of) G = Graph objs il ol ->
  (forall c, In c g.(conns) -> c.(c_sig) = true -> c.(c_to) = G -> In c.(c_from) K) ->
  (forall x, In x il -> ~ In x K) -> ~ In G C ->
  exists s', assign_event g (Enter G) s = Some s' /\ framed (Enter G) s s' /\ Inv (pendings (il ++ K) (G :: C)) s' m.
Proof.
  intros EG H2 H3 H4. cbn [assign_event]. rewrite EG, enter_fwd.
  destruct (wf_inlets _ _ _ _ _ WF G objs il ol EG) as (Nil & _ & Hil & _).
  set (l := enter_hands g G (number il)).
  assert (Fh : forall h, In h l -> exists i inlet, nth_error il i = Some inlet /\ h_from h = signals (at_inlet g G i) /\ h_obj h = inlet /\ h_let h = 0%nat /\
     h_count h = Z.of_nat (length (leaving g h))).
  { intros h Hh. apply in_map_iff in Hh as ((i, inlet) & <- & Hp). apply number_in in Hp.
    exists i, inlet. cbn. auto. }
  assert (Pk : map (fun h => (h.(h_obj), h.(h_let))) l = map (fun o => (o, 0%nat)) il).
  { unfold l, enter_hands. rewrite map_map. cbn. rewrite <- (number_snd il) at 2. now rewrite map_map. }
  assert (Fin : flat_map h_from l = flat_map (fun i => signals (at_inlet g G i)) (seq 0 (length il))).
  { unfold l, enter_hands. rewrite <- number_fst, !flat_map_concat_map, !map_map. reflexivity. }
  assert (Fout : flat_map (leaving g) l = flat_map (fun o => signals (at_outlet g o 0)) il).
  { unfold l, enter_hands. rewrite <- (number_snd il) at 2. rewrite !flat_map_concat_map, !map_map. reflexivity. }
  assert (P1 : Permutation (pendings K C) (flat_map h_from l ++ rest K C [G])).
  { apply pend_in.
    - intros c X1 X2 [X3 | []]. apply H2; auto.
    - intros x [<- | []]. exact H4.
    - rewrite Fin. apply (NoDup_flat_map_key _ (fun i => i) c_in).
      + rewrite map_id. apply seq_NoDup.
      + intros i _. apply signals_at_inlet_nodup.
      + intros i c _ Hc. apply in_signals in Hc as [Hc _]. apply in_at_inlet in Hc. tauto.
    - intros c. rewrite Fin, in_flat_map. split.
      + intros (i & Hi & Hc). apply in_signals in Hc as [Hc Sg]. apply in_at_inlet in Hc. cbn. intuition auto.
      + intros (X1 & X2 & [X3 | []]). exists (c_in c). split.
        * apply in_seq. destruct (wf_conn _ _ _ _ _ WF c X1) as (_ & X4 & _). unfold num_inlets in X4. rewrite <- X3, EG in X4. lia.
        * apply in_signals. rewrite in_at_inlet. auto. }
  assert (P2 : Permutation (flat_map (leaving g) l ++ rest K C [G]) (pendings (il ++ K) ([G] ++ C))).
  { apply pend_out; auto.
    - intros c X1 X2 [X3 | []]. apply H2; auto.
    - rewrite Fout. apply (NoDup_flat_map_key _ (fun i => i) c_from).
      + now rewrite map_id.
      + intros i _. apply signals_at_outlet_nodup.
      + intros i c _ Hc. apply in_signals in Hc as [Hc _]. apply in_at_outlet in Hc. tauto.
    - intros c. rewrite Fout, in_flat_map. split.
      + intros (i & Hi & Hc). apply in_signals in Hc as [Hc Sg]. apply in_at_outlet in Hc. intuition congruence.
      + intros (X1 & X2 & X3). exists (c_from c). split; [exact X3|].
        apply in_signals. rewrite in_at_outlet. repeat split; auto.
        destruct (wf_conn _ _ _ _ _ WF c X1) as (_ & _ & X4). unfold num_outlets in X4.
        apply Hil in X3 as [_ (a & Ea)]. rewrite Ea in X4. lia. }
  destruct (fwd_ok g f zero inp l (rest K C [G]) s m) as (s' & E' & I' & O' & K' & F').
  - rewrite Pk. apply (FinFun.Injective_map_NoDup); [|exact Nil]. intros x y [= E]. exact E.
  - now apply (Inv_perm g f zero inp (pendings K C)).
  - intros c h Hh Hc [X1 X2]. destruct (Fh h Hh) as (i & inlet & E1 & E2 & E3 & E4 & _).
    apply (Permutation_in c (Permutation_sym P1)) in Hc. apply in_pendings in Hc as (_ & _ & Hc & _).
    rewrite X1, E3 in Hc. apply (H3 inlet); [now apply (nth_error_In il i) | exact Hc].
  - intros h Hh. destruct (Fh h Hh) as (i & inlet & E1 & E2 & E3 & E4 & E5).
    split; [rewrite E2; apply (wf_single _ _ _ _ _ WF)|]. split; [rewrite E5; lia|].
    assert (Hin : In inlet il) by now apply (nth_error_In il i). split.
    + intros c v Ec Hv. rewrite E2 in Ec. rewrite E3, E4. pose proof (signals_fed _ _ _ Ec) as Fd.
      pose proof Hin as Hk. apply Hil in Hk as [_ (a & Ea)]. destruct a as [ch|].
      * exfalso. destruct Fd as (F1 & F2 & F3 & F4). apply (wf_adc _ _ _ _ _ WF c objs il ol inlet ch F1 F2); congruence.
      * apply (value_inlet g f zero inp inlet G i objs il ol v Ea EG E1). now apply (value_connected g f zero inp G i c).
    + intros Ec. rewrite E2 in Ec. rewrite E3, E4.
      rewrite (proj1 U inlet 0%nat (H3 inlet Hin)). cbn [init_state outb].
      pose proof Hin as Hk. apply Hil in Hk as [_ (a & Ea)]. rewrite Ea. destruct a as [ch|]; cbn [Nat.eqb].
      * rewrite (inv_in _ _ _ _ _ _ _ I). split; [now apply value_adc | exact Logic.I].
      * rewrite (inv_zero _ _ _ _ _ _ _ I). split; [|exact Logic.I].
        apply (value_inlet g f zero inp inlet G i objs il ol zero Ea EG E1). apply value_open. now apply signals_open.
  - exists s'. split; [exact E'|]. split.
    + split; [exact K' | split].
      * intros o j Ho. apply F'. rewrite Pk. cbn [keys] in Ho. unfold inlets_of in Ho. rewrite EG in Ho.
        intros X. apply in_map_iff in X as (x & [= <- _] & X). contradiction.
      * intros o i _. now rewrite O'.
    + apply (Inv_perm g f zero inp (flat_map (leaving g) l ++ rest K C [G])); [exact P2 | exact I'].
Qed.

Lemma exit_ok G objs il ol : g.(kind_of) G = Graph objs il ol ->
  (forall c, In c g.(conns) -> c.(c_sig) = true -> In c.(c_to) ol -> In c.(c_from) K) ->
  ~ In G K -> (forall x, In x ol -> ~ In x C) ->
  exists s', assign_event g (Exit G) s = Some s' /\ framed (Exit G) s s' /\ Inv (pendings (G :: K) (ol ++ C)) s' m.
Proof.
  intros EG H2 H3 H4. cbn [assign_event]. rewrite EG, exit_fwd.
  destruct (wf_inlets _ _ _ _ _ WF G objs il ol EG) as (_ & Nol & _ & Hol).
  set (l := exit_hands g G (number ol)).
  assert (Fh : forall h, In h l -> exists i outlet, nth_error ol i = Some outlet /\ h_from h = signals (at_inlet g outlet 0) /\ h_obj h = G /\ h_let h = i /\
     h_count h = Z.of_nat (length (at_outlet g G i))).
  { intros h Hh. apply in_map_iff in Hh as ((i, outlet) & <- & Hp). apply number_in in Hp.
    exists i, outlet. cbn. auto. }
  assert (Pk : map (fun h => (h.(h_obj), h.(h_let))) l = map (fun j => (G, j)) (seq 0 (length ol))).
  { unfold l, exit_hands. rewrite map_map. cbn. rewrite <- number_fst. now rewrite map_map. }
  assert (Fin : flat_map h_from l = flat_map (fun o => signals (at_inlet g o 0)) ol).
  { unfold l, exit_hands. rewrite <- (number_snd ol) at 2. rewrite !flat_map_concat_map, !map_map. reflexivity. }
  assert (Fout : flat_map (leaving g) l = flat_map (fun j => signals (at_outlet g G j)) (seq 0 (length ol))).
  { unfold l, exit_hands. rewrite <- number_fst, !flat_map_concat_map, !map_map. reflexivity. }
  assert (P1 : Permutation (pendings K C) (flat_map h_from l ++ rest K C ol)).
  { apply pend_in; auto.
    - rewrite Fin. apply (NoDup_flat_map_key _ (fun i => i) c_to).
      + now rewrite map_id.
      + intros i _. apply signals_at_inlet_nodup.
      + intros i c _ Hc. apply in_signals in Hc as [Hc _]. apply in_at_inlet in Hc. tauto.
    - intros c. rewrite Fin, in_flat_map. split.
      + intros (i & Hi & Hc). apply in_signals in Hc as [Hc Sg]. apply in_at_inlet in Hc. intuition congruence.
      + intros (X1 & X2 & X3). exists (c_to c). split; [exact X3|].
        apply in_signals. rewrite in_at_inlet. repeat split; auto.
        destruct (wf_conn _ _ _ _ _ WF c X1) as (_ & X4 & _). unfold num_inlets in X4.
        apply Hol in X3 as [_ Ea]. rewrite Ea in X4. lia. }
  assert (P2 : Permutation (flat_map (leaving g) l ++ rest K C ol) (pendings ([G] ++ K) (ol ++ C))).
  { apply pend_out; auto.
    - intros x [<- | []]. exact H3.
    - rewrite Fout. apply (NoDup_flat_map_key _ (fun i => i) c_out).
      + rewrite map_id. apply seq_NoDup.
      + intros i _. apply signals_at_outlet_nodup.
      + intros i c _ Hc. apply in_signals in Hc as [Hc _]. apply in_at_outlet in Hc. tauto.
    - intros c. rewrite Fout, in_flat_map. split.
      + intros (i & Hi & Hc). apply in_signals in Hc as [Hc Sg]. apply in_at_outlet in Hc. cbn. intuition auto.
      + intros (X1 & X2 & [X3 | []]). exists (c_out c). split.
        * apply in_seq. destruct (wf_conn _ _ _ _ _ WF c X1) as (_ & _ & X4). unfold num_outlets in X4. rewrite <- X3, EG in X4. lia.
        * apply in_signals. rewrite in_at_outlet. auto. }
  destruct (fwd_ok g f zero inp l (rest K C ol) s m) as (s' & E' & I' & O' & K' & F').
  - rewrite Pk. apply (FinFun.Injective_map_NoDup); [|apply seq_NoDup]. intros x y [= E]. exact E.
  - now apply (Inv_perm g f zero inp (pendings K C)).
  - intros c h Hh Hc [X1 X2]. destruct (Fh h Hh) as (i & outlet & E1 & E2 & E3 & E4 & _).
    apply (Permutation_in c (Permutation_sym P1)) in Hc. apply in_pendings in Hc as (_ & _ & Hc & _).
    rewrite X1, E3 in Hc. contradiction.
  - intros h Hh. destruct (Fh h Hh) as (i & outlet & E1 & E2 & E3 & E4 & E5).
    split; [rewrite E2; apply (wf_single _ _ _ _ _ WF)|].
    split; [rewrite E5; unfold leaving; rewrite E3, E4; pose proof (length_signals (at_outlet g G i)); lia|]. split.
    + intros c v Ec Hv. rewrite E2 in Ec. rewrite E3, E4. pose proof (signals_fed _ _ _ Ec) as Fd.
      apply (value_outlet g f zero inp G i objs il ol outlet v EG E1). now apply (value_connected g f zero inp outlet 0 c).
    + intros Ec. rewrite E2 in Ec. rewrite E3, E4.
      rewrite (proj1 U G i H3). cbn [init_state outb]. rewrite EG.
      rewrite (inv_zero _ _ _ _ _ _ _ I). split; [|exact Logic.I].
      apply (value_outlet g f zero inp G i objs il ol outlet zero EG E1). apply value_open. now apply signals_open.
  - exists s'. split; [exact E'|]. split.
    + split; [exact K' | split].
      * intros o j Ho. apply F'. rewrite Pk. cbn [keys] in Ho.
        intros X. apply in_map_iff in X as (x & [= <- _] & X). apply Ho. now left.
      * intros o i _. now rewrite O'.
    + apply (Inv_perm g f zero inp (flat_map (leaving g) l ++ rest K C ol)); [exact P2 | exact I'].
Qed.

Lemma exec_instr_stores s' o ins outs dac : g.(kind_of) o = Leaf true ins outs dac ->
  exec_instr f (instr_of g s' o) m = stores o (f o (map (fun i => m (s'.(inb) o i)) (sig_lets ins))) s' (sig_lets outs) m.
Proof.
  intros E. unfold exec_instr, instr_of. rewrite E. cbn [i_obj i_in i_out]. rewrite map_map.
  generalize (f o (map (fun x => m (inb s' o x)) (sig_lets ins))) as v. intros v. unfold stores.
  generalize m as m0. induction (sig_lets outs) as [| j js IH]; intros m0; cbn [map fold_left fst snd]; [reflexivity | apply IH].
Qed.

(** What an object sees and leaves behind *)
Definition visit_ok (o : nat) (xs : list A) (m' : @mem A) : Prop :=
  match g.(kind_of) o with
  | Leaf _ ins _ None => Forall2 (ivalue o) (sig_lets ins) xs /\ (forall ch, m' (BOut ch) = m (BOut ch))
  | Leaf _ _ _ (Some ch) =>
      exists v, ivalue o 0%nat v /\ xs = [v; m (BOut ch)] /\ m' (BOut ch) = f o [v; m (BOut ch)] 0%nat /\
        (forall ch', ch' <> ch -> m' (BOut ch') = m (BOut ch'))
  | _ => False
  end.

Lemma proc_ok o ins outs dac : g.(kind_of) o = Leaf true ins outs dac ->
  (forall c, In c g.(conns) -> c.(c_sig) = true -> c.(c_to) = o -> In c.(c_from) K) ->
  ~ In o K -> ~ In o C ->
  exists s', assign_event g (Proc o) s = Some s' /\ framed (Proc o) s s' /\
    Inv (pendings (o :: K) (o :: C)) s' (exec_instr f (instr_of g s' o) m) /\
    known_instr s'.(pl) (instr_of g s' o) /\
    visit_ok o (map m (instr_of g s' o).(i_in)) (exec_instr f (instr_of g s' o) m).
Proof.
  intros EG H2 H3 H4. cbn [assign_event]. unfold assign_leaf. rewrite EG.
  assert (P1 : Permutation (pendings K C) (flat_map (fun i => signals (at_inlet g o i)) (seq 0 (length ins)) ++ rest K C [o])).
  { apply pend_in.
    - intros c X1 X2 [X3 | []]. apply H2; auto.
    - intros x [<- | []]. exact H4.
    - apply (NoDup_flat_map_key _ (fun i => i) c_in).
      + rewrite map_id. apply seq_NoDup.
      + intros i _. apply signals_at_inlet_nodup.
      + intros i c _ Hc. apply in_signals in Hc as [Hc _]. apply in_at_inlet in Hc. tauto.
    - intros c. rewrite in_flat_map. split.
      + intros (i & Hi & Hc). apply in_signals in Hc as [Hc Sg]. apply in_at_inlet in Hc. cbn. intuition auto.
      + intros (X1 & X2 & [X3 | []]). exists (c_in c). split.
        * apply in_seq. destruct (wf_conn _ _ _ _ _ WF c X1) as (_ & X4 & _). unfold num_inlets in X4. rewrite <- X3, EG in X4. lia.
        * apply in_signals. rewrite in_at_inlet. auto. }
  pose proof (Inv_perm g f zero inp _ _ _ _ P1 I) as I0.
  destruct (inlets_ok g f zero inp (wf_single _ _ _ _ _ WF) o (seq 0 (length ins)) (rest K C [o]) s m (seq_NoDup _ _) I0)
    as (s1 & E1 & I1 & O1 & K1 & F1 & F2 & F3).
  rewrite E1.
  assert (Hnone : forall i, (i < length ins)%nat -> signals (at_inlet g o i) = [] -> s1.(inb) o i = (init_state g).(inb) o i).
  { intros i Hi E. rewrite (F3 i) by (auto; apply in_seq; lia). apply (proj2 U). exact H4. }
  assert (Hone : forall i c, (i < length ins)%nat -> signals (at_inlet g o i) = [c] ->
     s1.(inb) o i = port s c /\ value c.(c_from) c.(c_out) (m (port s c)) /\ (forall t n, port s c = BTmp t n -> refs s1.(pl) (BTmp t n) <> None)).
  { intros i c Hi E. assert (In c (pendings K C)) as Hc.
    { destruct (signals_fed _ _ _ E) as (X1 & X2 & X3 & X4). apply in_pendings. repeat split; auto. now rewrite X3. }
    split; [apply F2; [apply in_seq; lia | exact E]|]. split; [now apply (inv_value _ _ _ _ _ _ _ I)|].
    intros t n Eb. apply K1. pose proof (inv_count _ _ _ _ _ _ _ I c Hc) as X. rewrite Eb in X. cbn in X. destruct X as (k & X & _). cbn. congruence. }
  assert (Hcase : forall i, signals (at_inlet g o i) = [] \/ exists c, signals (at_inlet g o i) = [c]).
  { intros i. pose proof (wf_single _ _ _ _ _ WF o i) as L. destruct (signals (at_inlet g o i)) as [| c [| c2 cs]]; [now left | right; eauto | cbn in L; lia]. }
  assert (Hns : forall c, In c g.(conns) -> c.(c_sig) = true -> c.(c_from) = o -> exists t, nth_error outs c.(c_out) = Some (Some t) /\ dac = None).
  { intros c X1 X2 X3. pose proof (wf_source _ _ _ _ _ WF c X1 X2) as X. rewrite X3, EG in X. destruct X as (_ & X & t & Y). eauto. }
  destruct dac as [ch|].
  - destruct (wf_dac _ _ _ _ _ WF o true ins outs ch EG) as (_ & -> & -> & Hopen).
    assert (Eo : s1.(outb) o 0%nat = BOut ch).
    { rewrite O1, (proj1 U o 0%nat H3). cbn [init_state outb]. now rewrite EG. }
    assert (Ei1 : s1.(inb) o 1%nat = BOut ch).
    { rewrite Hnone; [cbn [init_state inb]; now rewrite EG | cbn; lia | now rewrite Hopen]. }
    cbn [number length seq combine assign_outlets]. rewrite Eo. exists s1. split; [reflexivity|].
    assert (Es : exec_instr f (instr_of g s1 o) m = store m (BOut ch) (f o [m (s1.(inb) o 0%nat); m (BOut ch)] 0%nat)).
    { rewrite (exec_instr_stores s1 o _ _ _ EG). unfold stores. cbn. rewrite Eo, Ei1. reflexivity. }
    assert (Ein : map m (i_in (instr_of g s1 o)) = [m (s1.(inb) o 0%nat); m (BOut ch)]).
    { unfold instr_of. rewrite EG. cbn. now rewrite Ei1. }
    assert (Hv : ivalue o 0%nat (m (s1.(inb) o 0%nat))).
    { destruct (Hcase 0%nat) as [E | (c & E)].
      - rewrite Hnone by (auto; cbn; lia). cbn [init_state inb]. rewrite EG. cbn. rewrite (inv_zero _ _ _ _ _ _ _ I).
        apply value_open. now apply signals_open.
      - destruct (Hone 0%nat c) as (E2 & V & _); [cbn; lia | exact E |]. rewrite E2.
        apply (value_connected g f zero inp o 0%nat c); [now apply signals_fed | exact V]. }
    split; [|split; [|split]].
    + split; [exact K1 | split].
      * intros o' j _. now rewrite O1.
      * intros o' i Ho. apply F1. left. intros ->. apply Ho. now left.
    + rewrite Es. apply (Inv_perm g f zero inp (rest K C [o])).
      * apply (pend_out K C [o] [o] []); auto.
        -- intros c X1 X2 [X3 | []]. apply H2; auto.
        -- intros x [<- | []]. exact H3.
        -- constructor.
        -- intros c. split; [intros []|]. intros (X1 & X2 & [X3 | []]). destruct (Hns c X1 X2 (eq_sym X3)) as (t & _ & X). discriminate.
      * constructor.
        -- apply I1.
        -- unfold store. cbn. apply I1.
        -- intros k. unfold store. cbn. apply I1.
        -- intros c Hc. unfold store. destruct (buf_eqb_spec (port s1 c) (BOut ch)) as [E | E]; [|now apply (inv_value _ _ _ _ _ _ _ I1)].
           pose proof (inv_count _ _ _ _ _ _ _ I1 c Hc) as X. rewrite E in X. destruct X.
        -- apply I1.
    + unfold known_instr, instr_of. rewrite EG. cbn. rewrite Eo, Ei1. split; [|constructor; [intros [] | constructor]]. intros t n [X | [X | [X | []]]]; try discriminate.
      destruct (Hcase 0%nat) as [E | (c & E)].
      * rewrite Hnone in X by (auto; cbn; lia). cbn [init_state inb] in X. rewrite EG in X. discriminate.
      * destruct (Hone 0%nat c) as (E2 & _ & Kn); [cbn; lia | exact E |]. apply Kn. congruence.
    + unfold visit_ok. rewrite EG. exists (m (s1.(inb) o 0%nat)). split; [exact Hv|]. split; [exact Ein|]. rewrite Es. unfold store. split.
      * now rewrite buf_eqb_refl.
      * intros ch' Hch. destruct (buf_eqb_spec (BOut ch') (BOut ch)) as [X | _]; [congruence | reflexivity].
  - assert (Hiv : forall s', s'.(inb) = s1.(inb) -> forall i, In i (sig_lets ins) -> ivalue o i (m (s'.(inb) o i))).
    { intros s' Es i Hi. apply sig_lets_lt in Hi. rewrite Es. destruct (Hcase i) as [E | (c & E)].
      - rewrite (Hnone i Hi E). cbn [init_state inb]. rewrite EG. rewrite (inv_zero _ _ _ _ _ _ _ I).
        apply value_open. now apply signals_open.
      - destruct (Hone i c Hi E) as (E2 & V & _). rewrite E2.
        apply (value_connected g f zero inp o i c); [now apply signals_fed | exact V]. }
    set (v := f o (map (fun i => m (s1.(inb) o i)) (sig_lets ins))).
    destruct (outlets_ok g f zero inp o v (number outs) [] (rest K C [o]) s1 m) as (I2 & O2 & K2 & F4 & T2 & M2).
    + rewrite number_fst. apply seq_NoDup.
    + intros i _. rewrite O1, (proj1 U o i H3). cbn [init_state outb]. now rewrite EG.
    + intros c Hc [X1 _]. apply in_rest in Hc as (_ & _ & Hc & _). now rewrite X1 in Hc.
    + intros j. unfold v. apply (value_leaf g f zero inp o j true ins outs (fun i => m (s1.(inb) o i)) EG).
      intros i Hi. now apply Hiv.
    + exact I1.
    + set (s' := assign_outlets g o (number outs) [] s1) in *. rewrite map_fst_sig_lets in *.
      assert (Es : exec_instr f (instr_of g s' o) m = stores o v s' (sig_lets outs) m).
      { rewrite (exec_instr_stores s' o _ _ _ EG), O2. reflexivity. }
      exists s'. split; [reflexivity|]. rewrite Es. split; [|split; [|split]].
      * split; [exact (known_trans _ _ _ K1 K2) | split].
        -- intros o' j Ho. rewrite F4, O1; [reflexivity|]. left. intros ->. apply Ho. now left.
        -- intros o' i Ho. rewrite O2. apply F1. left. intros ->. apply Ho. now left.
      * apply (Inv_perm g f zero inp (leaving_outs g o (number outs) ++ rest K C [o])); [|exact I2].
        apply (pend_out K C [o] [o]); auto.
        -- intros c X1 X2 [X3 | []]. apply H2; auto.
        -- intros x [<- | []]. exact H3.
        -- unfold leaving_outs. apply (NoDup_flat_map_key _ fst c_out).
           ++ rewrite number_fst. apply seq_NoDup.
           ++ intros p _. destruct (is_sig p); [apply signals_at_outlet_nodup | constructor].
           ++ intros p c _ Hc. destruct (is_sig p); [|destruct Hc]. apply in_signals in Hc as [Hc _]. apply in_at_outlet in Hc. tauto.
        -- intros c. unfold leaving_outs. rewrite in_flat_map. split.
           ++ intros (p & Hp & Hc). destruct (is_sig p); [|destruct Hc]. apply in_signals in Hc as [Hc Sg]. apply in_at_outlet in Hc. cbn. intuition auto.
           ++ intros (X1 & X2 & [X3 | []]). destruct (Hns c X1 X2 (eq_sym X3)) as (t & Y & _).
              exists (c_out c, Some t). split; [now apply number_in|]. cbn. apply in_signals. rewrite in_at_outlet. auto.
      * unfold known_instr, instr_of. rewrite EG. cbn [i_in i_out]. split.
        2: { destruct (outlets_distinct g o (number outs) [] [] s1) as (D & _); try (intros b []); try (apply I1).
             - rewrite number_fst. apply seq_NoDup.
             - intros i _. rewrite O1, (proj1 U o i H3). cbn [init_state outb]. now rewrite EG.
             - rewrite map_map. exact D. }
        intros t n X. apply in_app_or in X as [X | X].
        -- apply in_map_iff in X as (i & Ei & Hi). apply sig_lets_lt in Hi. rewrite O2 in Ei. apply K2. destruct (Hcase i) as [E | (c & E)].
           ++ rewrite (Hnone i Hi E) in Ei. cbn [init_state inb] in Ei. rewrite EG in Ei. discriminate.
           ++ destruct (Hone i c Hi E) as (E2 & _ & Kn). apply Kn. congruence.
        -- rewrite map_map in X. cbn in X. apply in_map_iff in X as (i & Ei & Hi). destruct (T2 i Hi) as (t' & n' & E2 & R2). congruence.
      * unfold visit_ok. rewrite EG. split; [|exact M2].
        unfold instr_of. rewrite EG. cbn [i_in]. rewrite map_map.
        assert (Hall : forall i, In i (sig_lets ins) -> ivalue o i (m (s'.(inb) o i))) by now apply Hiv.
        clear - Hall. induction (sig_lets ins) as [| i l IH]; cbn; constructor; [apply Hall; now left | apply IH; intros j Hj; apply Hall; now right].
Qed.
End Step.

(** A whole list of visits *)
Definition seen_ok (tr : list (nat * list A)) : Prop :=
  forall o xs, In (o, xs) tr ->
    match g.(kind_of) o with
    | Leaf _ ins _ None => Forall2 (ivalue o) (sig_lets ins) xs
    | Leaf _ _ _ (Some _) => exists v a, ivalue o 0%nat v /\ xs = [v; a]
    | _ => False
    end.

Lemma run_ok es : forall K C s m,
  (forall c, In c g.(conns) -> c.(c_sig) = true -> In c.(c_to) C -> In c.(c_from) K) ->
  valid g K es -> Forall (typed g) es ->
  NoDup (flat_map (keys g) es) -> NoDup (flat_map (consumers g) es) ->
  (forall x, In x (flat_map (keys g) es) -> ~ In x K) -> (forall x, In x (flat_map (consumers g) es) -> ~ In x C) ->
  untouched K C s -> Inv (pendings K C) s m ->
  exists sf, assign g es s = Some sf /\ pools_ok sf.(pl) /\ known s.(pl) sf.(pl) /\
    (forall o j, ~ In o (flat_map (keys g) es) -> sf.(outb) o j = s.(outb) o j) /\
    (forall o i, ~ In o (flat_map (consumers g) es) -> sf.(inb) o i = s.(inb) o i) /\
    Forall (known_instr sf.(pl)) (map (instr_of g sf) (procs es)) /\
    let (tr, m') := exec f (map (instr_of g sf) (procs es)) m in
    seen_ok tr /\ forall ch, mixed g f zero inp ch (procs es) (m (BOut ch)) (m' (BOut ch)).
Proof.
  induction es as [| e es IH]; intros K C s m H1 V T NK NC DK DC U I.
  - exists s. split; [reflexivity|]. split; [apply I|]. split; [apply known_refl|]. split; [reflexivity|]. split; [reflexivity|].
    split; [constructor|]. cbn. split; [intros o xs [] | intros ch; constructor].
  - cbn [valid flat_map] in *. destruct V as [V1 V2]. inversion T as [| ? ? T1 T2]; subst.
    apply NoDup_app_elim in NK as (NK1 & NK2 & NK3). apply NoDup_app_elim in NC as (NC1 & NC2 & NC3).
    assert (H1' : forall c, In c g.(conns) -> c.(c_sig) = true -> In c.(c_to) (consumers g e ++ C) -> In c.(c_from) (keys g e ++ K)).
    { intros c X1 X2 X3. apply in_or_app. right. apply in_app_or in X3 as [X3 | X3]; auto. }
    assert (DK' : forall x, In x (flat_map (keys g) es) -> ~ In x (keys g e ++ K)).
    { intros x Hx Hy. apply in_app_or in Hy as [Hy | Hy]; [now apply (NK3 x) | apply (DK x); [apply in_or_app; now right | exact Hy]]. }
    assert (DC' : forall x, In x (flat_map (consumers g) es) -> ~ In x (consumers g e ++ C)).
    { intros x Hx Hy. apply in_app_or in Hy as [Hy | Hy]; [now apply (NC3 x) | apply (DC x); [apply in_or_app; now right | exact Hy]]. }
    assert (Dk : forall x, In x (keys g e) -> ~ In x K) by (intros x Hx; apply DK; apply in_or_app; now left).
    assert (Dc : forall x, In x (consumers g e) -> ~ In x C) by (intros x Hx; apply DC; apply in_or_app; now left).
    assert (Step : exists s1, assign_event g e s = Some s1 /\ framed e s s1 /\
       Inv (pendings (keys g e ++ K) (consumers g e ++ C)) s1 (match e with Proc o => exec_instr f (instr_of g s1 o) m | _ => m end) /\
       match e with
       | Proc o => known_instr s1.(pl) (instr_of g s1 o) /\ visit_ok m o (map m (instr_of g s1 o).(i_in)) (exec_instr f (instr_of g s1 o) m)
       | _ => True end).
    { destruct e as [G | o | G]; cbn [typed keys consumers] in *.
      - destruct T1 as (objs & il & ol & EG). unfold inlets_of in *. rewrite EG in *.
        destruct (enter_ok K C s m H1 U I G objs il ol EG) as (s1 & X1 & X2 & X3).
        + intros c Y1 Y2 Y3. apply V1; auto. left. auto.
        + exact Dk.
        + apply Dc. now left.
        + exists s1. auto.
      - destruct T1 as (ins & outs & dac & EG).
        destruct (proc_ok K C s m H1 U I o ins outs dac EG) as (s1 & X1 & X2 & X3 & X4 & X5).
        + intros c Y1 Y2 Y3. apply V1; auto. left. auto.
        + apply Dk. now left.
        + apply Dc. now left.
        + exists s1. auto.
      - destruct T1 as (objs & il & ol & EG). unfold outlets_of in *. rewrite EG in *.
        destruct (exit_ok K C s m H1 U I G objs il ol EG) as (s1 & X1 & X2 & X3).
        + exact V1.
        + apply Dk. now left.
        + exact Dc.
        + exists s1. auto. }
    destruct Step as (s1 & E1 & Fr & I1 & Hp). pose proof Fr as (Kn1 & Fo & Fi).
    destruct (IH (keys g e ++ K) (consumers g e ++ C) s1 _ H1' V2 T2 NK2 NC2 DK' DC' (untouched_step K C s e s1 U Fr) I1)
      as (sf & E2 & OK & Kn2 & Go & Gi & KI & R).
    exists sf. cbn [assign]. rewrite E1. split; [exact E2|]. split; [exact OK|]. split; [exact (known_trans _ _ _ Kn1 Kn2)|].
    split; [|split].
    + intros o j Ho. rewrite Go by (intros X; apply Ho; apply in_or_app; now right). apply Fo. intros X. apply Ho. apply in_or_app. now left.
    + intros o i Ho. rewrite Gi by (intros X; apply Ho; apply in_or_app; now right). apply Fi. intros X. apply Ho. apply in_or_app. now left.
    + destruct e as [G | o | G]; cbn [procs flat_map app map]; try (split; [exact KI | exact R]).
      fold (procs es). cbn [keys consumers typed] in *.
      assert (Ei : instr_of g sf o = instr_of g s1 o).
      { unfold instr_of. destruct T1 as (ins & outs & dac & EG). rewrite EG. f_equal.
        - apply map_ext. intros i. apply Gi. intros X. apply (NC3 o); [now left | exact X].
        - apply map_ext. intros j. f_equal. apply Go. intros X. apply (NK3 o); [now left | exact X]. }
      destruct Hp as [Kp Vp]. split.
      * constructor; [|exact KI]. rewrite Ei. split; [|apply Kp]. intros t n X. apply Kn2. now apply (proj1 Kp).
      * cbn [exec]. rewrite Ei. destruct (exec f (map (instr_of g sf) (procs es)) (exec_instr f (instr_of g s1 o) m)) as [tr m'] eqn:Ex.
        destruct R as [R1 R2]. assert (Eio : i_obj (instr_of g s1 o) = o) by (unfold instr_of; destruct (kind_of g o); reflexivity).
        rewrite Eio. unfold visit_ok in Vp. split.
        -- intros o' xs [[= <- <-] | X]; [|now apply R1]. destruct (kind_of g o) as [sg ins outs [ch|] | | |]; try exact Vp; [|tauto].
           destruct Vp as (v & V3 & V4 & _). rewrite V4. eauto.
        -- intros ch. specialize (R2 ch). destruct (kind_of g o) as [sg ins outs [ch'|] | | |] eqn:Ek; try (destruct Vp; fail).
           ++ destruct Vp as (v & V3 & _ & V4 & V5). destruct (Nat.eq_dec ch ch') as [<- | Hc].
              ** apply (mixed_add g f zero inp ch o _ v); [unfold is_dac; rewrite Ek; apply Nat.eqb_refl | exact V3 | now rewrite V4 in R2].
              ** apply mixed_skip; [unfold is_dac; rewrite Ek; apply Nat.eqb_neq; congruence | now rewrite V5 in R2].
           ++ apply mixed_skip; [unfold is_dac; now rewrite Ek|]. destruct Vp as [_ V5]. now rewrite V5 in R2.
Qed.
End Run.
