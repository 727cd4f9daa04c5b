(** Properties C32, C33, C46, C47: ordering of signal objects and their buffers. *)
From Coq Require Import Permutation.
From Verif Require Import GraphModel GraphSpec OrderProofs BufferProofs GraphProofs GraphProofs2 GraphProofs3 GraphProofs4.

(** ** C33: ordering *)
(** The ordering of any graph whose connections stay inside it terminates and repeats nothing,
    feedback or not. *)
Theorem ordering_terminates g objs :
  (forall c, In c g.(conns) -> In c.(c_to) objs -> In c.(c_from) objs) ->
  exists l, full_order g objs = Some l /\ NoDup l /\ incl l objs.
Proof.
  intros C. apply full_order_terminates_lemma. intros o c Ho Hc. apply in_in_connections in Hc as (Hc & E & _).
  apply C; [exact Hc | now rewrite E].
Qed.
(** Without feedback, every object of the graph is listed exactly once, after all objects connected to it. *)
Theorem ordering_sources_first g objs rank l :
  (forall c, In c g.(conns) -> (In c.(c_to) objs <-> In c.(c_from) objs) /\ c.(c_in) < num_inlets g c.(c_to)) ->
  (forall c, In c g.(conns) -> rank c.(c_from) < rank c.(c_to)) ->
  full_order g objs = Some l ->
  NoDup l /\ (forall o, In o l <-> In o objs) /\
  forall c a b, In c g.(conns) -> l = a ++ c.(c_to) :: b -> In c.(c_from) a.
Proof.
  intros C R E.
  assert (C' : forall o c, In o objs -> In c (in_connections g o) -> In (c_from c) objs).
  { intros o c Ho Hc. apply in_in_connections in Hc as (Hc & X & _). apply C; [exact Hc | now rewrite X]. }
  destruct (full_order_terminates_lemma g objs C') as (l' & E' & N & I). rewrite E in E'. injection E' as <-.
  destruct (full_order_sorted_lemma g objs rank l C') as [S A]; [| | exact E |].
  - intros c Hc Ho. destruct (C c Hc) as [X1 X2]. split; [now apply X1 | exact X2].
  - intros o c _ Hc. apply in_in_connections in Hc as (Hc & <- & _). now apply R.
  - split; [exact N|]. split; [intros o; split; auto|].
    intros c a b Hc El. apply (S a _ b El c). apply in_in_connections. split; [exact Hc|]. split; [reflexivity|]. now apply C.
Qed.

Lemma procs_events_in es o : In o (procs es) <-> In (Proc o) es.
Proof.
  unfold procs. rewrite in_flat_map. split.
  - intros (e & He & Ho). destruct e; cbn in Ho; try tauto. destruct Ho as [-> | []]. exact He.
  - intros H. exists (Proc o). split; [exact H | now left].
Qed.
Lemma order_origin g es : forall K,
  Forall (typed g) es -> valid g K es ->
  (forall G objs il ol, g.(kind_of) G = Graph objs il ol -> (forall o, In o il -> exists a, g.(kind_of) o = Inlet a)) ->
  (forall G objs il ol G' objs' il' ol' o i i', g.(kind_of) G = Graph objs il ol -> g.(kind_of) G' = Graph objs' il' ol' ->
     In o il -> nth_error il' i' = Some o -> nth_error il i = Some o -> G' = G) ->
  (forall x j p, In x K -> origin g x j p -> In p K) ->
  forall a o b p, procs es = a ++ o :: b -> feeds g p o -> In p (K ++ a).
Proof.
  induction es as [| e es IH]; intros K T V HI HU HK a o b p E F.
  - destruct a; discriminate.
  - inversion T as [| ? ? T1 T2]; subst. cbn [valid] in V. destruct V as [V1 V2].
    assert (HK' : forall x j q, In x (keys g e ++ K) -> origin g x j q -> In q (keys g e ++ K)).
    { intros x j q Hx Ho. apply in_app_or in Hx as [Hx | Hx]; [|apply in_or_app; right; now apply (HK x j)].
      destruct e as [G | o' | G]; cbn [keys consumers typed] in *.
      - destruct T1 as (objs & il & ol & EG). unfold inlets_of in *. rewrite EG in *.
        inversion Ho as [? ? ? ? ? ? E1 | ? G' i ? il' ? c ? E1 E2 E3 E4 | ? ? ? ? ? ? c ? E1 E2 E3 E4]; subst.
        + destruct (HI G objs il ol EG _ Hx) as [a' Ea]. congruence.
        + destruct (In_nth_error il x Hx) as [i0 Ei0].
          assert (G' = G) as -> by exact (HU G objs il ol G' _ _ _ x i0 i EG E1 Hx E2 Ei0).
          apply in_or_app. right. apply (HK (c_from c) (c_out c)); [|exact E4].
          destruct E3 as (Y1 & Y2 & Y3 & Y4). apply V1; auto. left. auto.
        + destruct (HI G objs il ol EG _ Hx) as [a' Ea]. congruence.
      - destruct Hx as [<- | []]. destruct T1 as (ins & outs & dac & EG).
        inversion Ho as [? ? ? ? ? ? E1 | ? G' i ? il' ? c ? E1 E2 E3 E4 | ? ? ? ? ? ? c ? E1 E2 E3 E4]; subst.
        + now left.
        + destruct (HI G' _ _ _ E1 o') as [a' Ea]; [now apply (nth_error_In _ i) | congruence].
        + congruence.
      - destruct Hx as [<- | []]. destruct T1 as (objs & il & ol & EG). unfold outlets_of in *. rewrite EG in *.
        inversion Ho as [? ? ? ? ? ? E1 | ? G' i ? il' ? c ? E1 E2 E3 E4 | ? ? ? ? ? ? c ? E1 E2 E3 E4]; subst.
        + congruence.
        + destruct (HI G' _ _ _ E1 G) as [a' Ea]; [now apply (nth_error_In _ i) | congruence].
        + rewrite EG in E1. injection E1 as <- <- <-. apply in_or_app. right. apply (HK (c_from c) (c_out c)); [|exact E4].
          destruct E3 as (Y1 & Y2 & Y3 & Y4). apply V1; auto. rewrite Y3. now apply (nth_error_In _ j). }
    assert (Leafp : forall p o, feeds g p o -> exists sg ins outs dac, g.(kind_of) p = Leaf sg ins outs dac).
    { intros p0 o0 (i & c & _ & Ho). induction Ho; eauto. }
    destruct e as [G | o' | G]; cbn [procs flat_map app] in E; fold (procs es) in E.
    + pose proof (IH _ T2 V2 HI HU HK' a o b p E F) as X. apply in_app_or in X as [X | X]; [|apply in_or_app; now right].
      apply in_app_or in X as [X | X]; [|apply in_or_app; now left].
      destruct (Leafp p o F) as (sg & ins & outs & dac & Ep). cbn in X. unfold inlets_of in X.
      destruct (kind_of g G) eqn:EG; try (destruct X; fail). destruct (HI G _ _ _ EG p X). congruence.
    + destruct a as [| a0 a]; cbn [app] in E; injection E as E0 E.
      * rewrite E0 in V1. destruct F as (i & c & (Y1 & Y2 & Y3 & Y4) & Ho). rewrite app_nil_r. apply (HK (c_from c) (c_out c)); [|exact Ho].
        apply V1; auto. left. auto.
      * pose proof (IH _ T2 V2 HI HU HK' a o b p E F) as X. cbn [keys] in X. rewrite E0 in X. apply in_app_or in X as [X | X].
        -- cbn [app] in X. destruct X as [<- | X]; apply in_or_app; [right; now left | now left].
        -- apply in_or_app. right. now right.
    + pose proof (IH _ T2 V2 HI HU HK' a o b p E F) as X. apply in_app_or in X as [X | X]; [|apply in_or_app; now right].
      apply in_app_or in X as [X | X]; [|apply in_or_app; now left].
      destruct (Leafp p o F) as (sg & ins & outs & dac & Ep). cbn in X. destruct X as [<- | []]. cbn in T1. destruct T1 as (? & ? & ? & T1). congruence.
Qed.

Lemma compile_events g root depth level rank : well_formed g root depth level rank ->
  exists objs il ol es, g.(kind_of) root = Graph objs il ol /\ events depth g root = Some (Enter root :: es) /\ visits_ok g root il es.
Proof.
  intros WF. destruct (wf_root _ _ _ _ _ WF) as ((objs & il & ol & EG) & L & D).
  destruct (events_ok g root depth level rank WF depth root objs il ol EG) as (es & E & V); [lia | lia |].
  exists objs, il, ol, es. auto.
Qed.
Lemma init_inv {A} g (f : nat -> list A -> nat -> A) zero inp (m : mem) :
  m BZero = zero -> (forall ch, m (BIn ch) = inp ch) -> Inv g f zero inp (pendings g [] []) (init_state g) m.
Proof.
  intros Hz Hi. assert (E : pendings g [] [] = []).
  { unfold pendings. induction (conns g) as [| c l IH]; cbn; [reflexivity|]. rewrite andb_false_r. exact IH. }
  rewrite E. constructor; auto; [|intros c [] | intros c []].
  intros t. cbn. split; [constructor|]. split; [constructor|]. intros b. cbn. split; [intros [] | unfold num_buffers; cbn; lia].
Qed.
Lemma map_i_obj g s l : map i_obj (map (instr_of g s) l) = l.
Proof.
  rewrite map_map. induction l as [| o l IH]; cbn; [reflexivity|]. rewrite IH. f_equal. unfold instr_of. destruct (kind_of g o); reflexivity.
Qed.
Lemma procs_nodup es g : NoDup (flat_map (keys g) es) -> NoDup (procs es).
Proof.
  induction es as [| e es IH]; cbn; intros N; [constructor|]. apply NoDup_app_elim in N as (N1 & N2 & D).
  destruct e as [G | o | G]; cbn; [now apply IH | | now apply IH]. constructor; [|now apply IH].
  intros H. apply (D o); [now left|]. apply procs_events_in in H. apply in_flat_map. exists (Proc o). split; [exact H | now left].
Qed.

Lemma exec_objs {A} (f : nat -> list A -> nat -> A) code : forall m, map fst (fst (exec f code m)) = map i_obj code.
Proof.
  induction code as [| i code IH]; intros m; cbn; [reflexivity|]. specialize (IH (exec_instr f i m)).
  destruct (exec f code (exec_instr f i m)) as [tr m']. cbn in *. now rewrite IH.
Qed.
Section Compiled.
Variables (g : patch) (root depth : nat) (level rank : nat -> nat).
Hypothesis WF : well_formed g root depth level rank.

Lemma compile_run {A} (f : nat -> list A -> nat -> A) zero inp (m : mem) :
  m BZero = zero -> (forall ch, m (BIn ch) = inp ch) ->
  exists objs il ol es sf, g.(kind_of) root = Graph objs il ol /\ visits_ok g root il es /\
    compile depth g root = Some (map (instr_of g sf) (procs es), sf.(pl)) /\ pools_ok sf.(pl) /\
    Forall (known_instr sf.(pl)) (map (instr_of g sf) (procs es)) /\
    let (tr, m') := exec f (map (instr_of g sf) (procs es)) m in
    seen_ok g f zero inp tr /\ forall ch, mixed g f zero inp ch (procs es) (m (BOut ch)) (m' (BOut ch)).
Proof.
  intros Hz Hi. destruct (compile_events _ _ _ _ _ WF) as (objs & il & ol & es & EG & E & V).
  destruct (run_ok g f zero inp root depth level rank WF (Enter root :: es) [] [] (init_state g) m) as (sf & E2 & OK & _ & _ & _ & KI & R).
  - intros c _ _ [].
  - cbn [valid]. split.
    + intros c X1 X2 [X3 | []]. destruct (wf_conn _ _ _ _ _ WF c X1) as ((G & _ & Y) & _).
      destruct (wf_level _ _ _ _ _ WF _ _ Y) as [L _]. rewrite <- X3 in L. destruct (wf_root _ _ _ _ _ WF) as (_ & L0 & _). lia.
    + apply (valid_mono g es il); [|apply (vo_valid _ _ _ _ V)]. cbn [keys]. unfold inlets_of. rewrite EG. apply incl_appl, incl_refl.
  - apply (vo_typed _ _ _ _ V).
  - apply (vo_keys _ _ _ _ V).
  - apply (vo_cons _ _ _ _ V).
  - intros x _ [].
  - intros x _ [].
  - split; reflexivity.
  - now apply init_inv.
  - exists objs, il, ol, es, sf. unfold compile. rewrite E, E2. repeat (split; [first [assumption | reflexivity]|]). exact R.
Qed.

(** Each signal object of the patch occurs in the process list exactly once, after every signal
    object that feeds it, also across subpatch boundaries. *)
Theorem process_list_order : exists code P, compile depth g root = Some (code, P) /\
  NoDup (map i_obj code) /\
  (forall o, In o (map i_obj code) <-> within g root o /\ exists ins outs dac, g.(kind_of) o = Leaf true ins outs dac) /\
  (forall a o b p, map i_obj code = a ++ o :: b -> feeds g p o -> In p a).
Proof.
  destruct (compile_run (fun _ _ _ => tt) tt (fun _ => tt) (fun _ => tt) eq_refl (fun _ => eq_refl)) as (objs & il & ol & es & sf & EG & V & E & _).
  eexists. eexists. split; [exact E|]. rewrite map_i_obj. split; [|split].
  - apply (procs_nodup (Enter root :: es) g). apply (vo_keys _ _ _ _ V).
  - apply (vo_procs _ _ _ _ V).
  - intros a o b p El F.
    pose proof (vo_typed _ _ _ _ V) as T. inversion T as [| ? ? T1 T2]; subst.
    pose proof (order_origin g (Enter root :: es) [] T) as X. cbn [app] in X.
    apply (X) with (b := b) (o := o); clear X; auto.
    + cbn [valid]. split.
      * intros c X1 X2 [X3 | []]. destruct (wf_conn _ _ _ _ _ WF c X1) as ((G & _ & Y) & _).
        destruct (wf_level _ _ _ _ _ WF _ _ Y) as [L _]. rewrite <- X3 in L. destruct (wf_root _ _ _ _ _ WF) as (_ & L0 & _). lia.
      * apply (valid_mono g es il); [|apply (vo_valid _ _ _ _ V)]. cbn [keys]. unfold inlets_of. rewrite EG. apply incl_appl, incl_refl.
    + intros G ob i' o' Ek x Hx. destruct (wf_inlets _ _ _ _ _ WF G ob i' o' Ek) as (_ & _ & H & _). apply H in Hx. tauto.
    + intros G ob i' o' G' ob' i'' o'' x i1 i2 Ek Ek' Hx Y1 Y2.
      destruct (wf_inlets _ _ _ _ _ WF G ob i' o' Ek) as (_ & _ & H & _).
      destruct (wf_inlets _ _ _ _ _ WF G' ob' i'' o'' Ek') as (_ & _ & H' & _).
      apply (wf_parent _ _ _ _ _ WF x); unfold inside; [rewrite Ek'; apply H'; now apply (nth_error_In _ i2) | rewrite Ek; now apply H].
Qed.

(** ** C32: buffers *)
(** Whatever the objects compute, executing the process list gives every object at every signal inlet
    the block its source produced, every output channel the sum its dac~ adders form; it only
    uses buffers that exist and no object writes two outlets to one buffer. *)
Theorem compiled_patch_computes_its_dataflow : exists code P, compile depth g root = Some (code, P) /\
  (forall i t n, In i code -> In (BTmp t n) (i.(i_in) ++ map snd i.(i_out)) -> n < num_buffers (P t)) /\
  (forall i, In i code -> NoDup (map snd i.(i_out))) /\
  forall (A : Type) (f : nat -> list A -> nat -> A) (zero : A) (inp : nat -> A) (m : mem),
    m BZero = zero -> (forall ch, m (BIn ch) = inp ch) ->
    let (tr, m') := exec f code m in
    map fst tr = map i_obj code /\
    (forall o xs sg ins outs, In (o, xs) tr -> g.(kind_of) o = Leaf sg ins outs None ->
       Forall2 (inlet_value g f zero inp o) (sig_lets ins) xs) /\
    (forall ch, mixed g f zero inp ch (map i_obj code) (m (BOut ch)) (m' (BOut ch))).
Proof.
  destruct (compile_run (fun _ _ _ => tt) tt (fun _ => tt) (fun _ => tt) eq_refl (fun _ => eq_refl))
    as (objs & il & ol & es & sf & EG & V & E & OK & KI & _).
  eexists. eexists. split; [exact E|]. split.
  - intros i t n Hi Hb. rewrite Forall_forall in KI. pose proof (proj1 (KI i Hi) t n Hb) as X.
    destruct (refs (pl sf) (BTmp t n)) as [k|] eqn:Ek; [|congruence]. now apply (refs_bound (pl sf) t n k).
  - split; [intros i Hi; rewrite Forall_forall in KI; exact (proj2 (KI i Hi))|]. intros A f zero inp m Hz Hi.
    destruct (compile_run f zero inp m Hz Hi) as (objs' & il' & ol' & es' & sf' & _ & _ & E' & _ & _ & R).
    rewrite E in E'. injection E' as E1 E2. rewrite <- E1 in R.
    assert (Ep : procs es' = procs es).
    { rewrite <- (map_i_obj g sf' (procs es')), <- E1, map_i_obj. reflexivity. }
    pose proof (exec_objs f (map (instr_of g sf) (procs es)) m) as X0.
    destruct (exec f (map (instr_of g sf) (procs es)) m) as [tr m']. destruct R as [R1 R2]. split; [exact X0|]. split.
    + intros o xs sg ins outs Hin Ek. pose proof (R1 o xs Hin) as X. now rewrite Ek in X.
    + intros ch. rewrite map_i_obj, <- Ep. apply R2.
Qed.
End Compiled.

(** The signals of a patch are unique, so the values above are the only ones the patch can mean. *)
Scheme outlet_value_mut := Induction for outlet_value Sort Prop
  with inlet_value_mut := Induction for inlet_value Sort Prop.
Theorem signals_are_unique {A} g root depth level rank (f : nat -> list A -> nat -> A) zero inp :
  well_formed g root depth level rank ->
  (forall o j a b, outlet_value g f zero inp o j a -> outlet_value g f zero inp o j b -> a = b) /\
  (forall o i a b, inlet_value g f zero inp o i a -> inlet_value g f zero inp o i b -> a = b).
Proof.
  intros WF.
  assert (Fu : forall o i c c', fed_by g o i c -> fed_by g o i c' -> c = c').
  { intros o i c c' (H1 & H2 & H3 & H4) (K1 & K2 & K3 & K4). pose proof (wf_single _ _ _ _ _ WF o i) as L.
    assert (In c (signals (at_inlet g o i))) by (apply in_signals; rewrite in_at_inlet; auto).
    assert (In c' (signals (at_inlet g o i))) by (apply in_signals; rewrite in_at_inlet; auto).
    destruct (signals (at_inlet g o i)) as [| x [| y l]]; cbn in *; [tauto | intuition congruence | lia]. }
  assert (Iu : forall o G objs il ol i G' objs' il' ol' i', g.(kind_of) G = Graph objs il ol -> nth_error il i = Some o ->
    g.(kind_of) G' = Graph objs' il' ol' -> nth_error il' i' = Some o -> G = G' /\ i = i').
  { intros o G objs il ol i G' objs' il' ol' i' E1 E2 E3 E4.
    destruct (wf_inlets _ _ _ _ _ WF G objs il ol E1) as (N & _ & H & _).
    destruct (wf_inlets _ _ _ _ _ WF G' objs' il' ol' E3) as (_ & _ & H' & _).
    assert (G = G') as <-.
    { apply (wf_parent _ _ _ _ _ WF o); unfold inside; [rewrite E1; apply H; now apply (nth_error_In _ i) | rewrite E3; apply H'; now apply (nth_error_In _ i')]. }
    split; [reflexivity|]. rewrite E1 in E3. injection E3 as <- <- <-.
    rewrite NoDup_nth_error in N. apply N; [apply nth_error_Some; congruence | congruence]. }
  assert (O : forall o j a, outlet_value g f zero inp o j a -> forall b, outlet_value g f zero inp o j b -> a = b).
  { apply (outlet_value_mut A g f zero inp
      (fun o j a _ => forall b, outlet_value g f zero inp o j b -> a = b)
      (fun o i a _ => forall b, inlet_value g f zero inp o i b -> a = b)).
    - intros o j sg ins outs x Ek Hx IH b Hb.
      inversion Hb as [? ? ? ? ? x' Ek' Hx' | | |]; subst; try congruence.
      rewrite Ek in Ek'. injection Ek' as <- <- <-. f_equal. apply map_ext_in. intros i Hi. now apply IH, Hx'.
    - intros o ch Ek b Hb. inversion Hb; subst; congruence.
    - intros o G i objs il ol v Ek EG En Hv IH b Hb. inversion Hb as [| | ? G' i' ? ? ? ? Ek' EG' En' Hv' |]; subst; try congruence.
      destruct (Iu o _ _ _ _ _ _ _ _ _ _ EG En EG' En') as [-> ->]. now apply IH.
    - intros G j objs il ol o v EG En Hv IH b Hb. inversion Hb as [| ? ? Ek' E' | ? G' i' ? ? ? ? Ek' EG' En' Hv' | ? ? ? ? ? o' ? EG' En' Hv']; subst; try congruence.
      rewrite EG in EG'. injection EG' as <- <- <-. rewrite En in En'. injection En' as <-. now apply IH.
    - intros o i c v F Hv IH b Hb. inversion Hb as [? ? c' ? F' Hv' | ? ? F']; subst.
      + rewrite (Fu _ _ _ _ F F') in *. now apply IH.
      + exfalso. exact (F' c F).
    - intros o i F b Hb. inversion Hb as [? ? c' ? F' Hv' | ? ? F']; subst; [exfalso; exact (F c' F') | reflexivity]. }
  split; [intros o j a b Ha Hb; exact (O o j a Ha b Hb)|].
  intros o i a b Ha Hb. destruct Ha as [o i c v F Hv | o i F].
  - inversion Hb as [? ? c' ? F' Hv' | ? ? F']; subst.
    + rewrite (Fu _ _ _ _ F F') in *. exact (O _ _ _ Hv _ Hv').
    + exfalso. exact (F' c F).
  - inversion Hb as [? ? c' ? F' Hv' | ? ? F']; subst; [exfalso; exact (F c' F') | reflexivity].
Qed.

(** ** Examples: a patch with an adc~, a subpatch that squares it, an object with an unused outlet, and a dac~ *)
Definition sigc (a i b j : nat) : conn := {| c_from := a; c_out := i; c_to := b; c_in := j; c_sig := true |}.
Definition ctlc (a i b j : nat) : conn := {| c_from := a; c_out := i; c_to := b; c_in := j; c_sig := false |}.
Definition F : option bool := Some false.
Definition demo : patch :=
  {| kind_of := fun o => nth o [Graph [4; 2; 1; 3] [1] []; Inlet (Some 0); Graph [5; 7; 6] [5] [7]; Leaf true [F] [F; F] None;
                                Leaf true [F; F] [F] (Some 0); Inlet None; Leaf true [F; F] [F] None; Outlet] Outlet;
     conns := [sigc 1 0 2 0; sigc 5 0 6 0; sigc 5 0 6 1; sigc 6 0 7 0; sigc 2 0 3 0; sigc 3 0 4 0] |}.
Definition demo_level (o : nat) : nat := nth o [0; 1; 1; 1; 1; 2; 2; 2] 9.

Lemma demo_graph G objs il ol : demo.(kind_of) G = Graph objs il ol ->
  (G = 0 /\ objs = [4; 2; 1; 3] /\ il = [1] /\ ol = []) \/ (G = 2 /\ objs = [5; 7; 6] /\ il = [5] /\ ol = [7]).
Proof.
  do 8 (destruct G as [| G]; [cbn; intros E; try discriminate; injection E as <- <- <-; auto|]). destruct G; discriminate.
Qed.
Lemma demo_inside o G : inside demo o G -> (G = 0 /\ In o [4; 2; 1; 3]) \/ (G = 2 /\ In o [5; 7; 6]).
Proof.
  unfold inside. destruct (kind_of demo G) as [| | | objs il ol] eqn:E; try tauto.
  destruct (demo_graph G objs il ol E) as [(-> & -> & _) | (-> & -> & _)]; auto.
Qed.
Example demo_well_formed : well_formed demo 0 3 demo_level (fun o => o).
Proof.
  split.
  2: { intros o i. do 8 (destruct o as [| o]; [do 3 (destruct i as [| i]; [cbn; lia|]); cbn; lia|]). cbn. lia. }
  constructor.
  - split; [exists [4; 2; 1; 3], [1], []; reflexivity | split; [reflexivity | lia]].
  - intros o G G' H H'. apply demo_inside in H. apply demo_inside in H'. cbn in H, H'. intuition congruence.
  - intros o G H. apply demo_inside in H as [[-> H] | [-> H]]; cbn in H; intuition (subst; cbn; lia).
  - intros G objs il ol E. destruct (demo_graph G objs il ol E) as [(-> & -> & -> & ->) | (-> & -> & -> & ->)].
    + split; [repeat constructor; cbn; intuition congruence|]. split; [constructor|]. split; intros o.
      * split; [intros [<- | []]; cbn; eauto 10 |]. cbn. intros [H (a & Ea)]. intuition (subst; cbn in Ea; try discriminate; auto).
      * split; [intros []|]. cbn. intros [H Ea]. intuition (subst; cbn in Ea; discriminate).
    + split; [repeat constructor; cbn; intuition congruence|]. split; [repeat constructor; cbn; intuition congruence|]. split; intros o.
      * split; [intros [<- | []]; cbn; eauto 10 |]. cbn. intros [H (a & Ea)]. intuition (subst; cbn in Ea; try discriminate; auto).
      * split; [intros [<- | []]; cbn; auto|]. cbn. intros [H Ea]. intuition (subst; cbn in Ea; try discriminate; auto).
  - intros c H. cbn in H. repeat (destruct H as [<- | H]); try (destruct H; fail); (split; [|cbn; lia]);
      first [exists 0; cbn; tauto | exists 2; cbn; tauto].
  - intros c H. cbn in H. repeat (destruct H as [<- | H]); try (destruct H; fail); cbn; lia.
  - intros c H _. cbn in H. repeat (destruct H as [<- | H]); try (destruct H; fail); cbn; unfold F; eauto 10.
    apply (proc_inside demo 6 2); [cbn; tauto|]. now apply (proc_leaf demo 6 [F; F] [F] None).
  - intros c objs il ol o ch H _ E En. cbn in H. repeat (destruct H as [<- | H]); try (destruct H; fail); cbn in E; try discriminate.
    injection E as <- <- <-. cbn in En. injection En as <-. cbn. discriminate.
  - intros o sg ins outs ch. do 8 (destruct o as [| o]; [cbn; intros E; try discriminate; injection E as <- <- <- <-; auto|]). destruct o; discriminate.
Qed.
(** Its process list: the product, the object with two outlets, the adder of dac~. *)
Example demo_compiles : exists P, compile 3 demo 0 =
  Some ([{| i_obj := 6; i_in := [BIn 0; BIn 0]; i_out := [(0, BTmp false 0)] |};
         {| i_obj := 3; i_in := [BTmp false 0]; i_out := [(0, BTmp false 0); (1, BTmp false 1)] |};
         {| i_obj := 4; i_in := [BTmp false 0; BOut 0]; i_out := [(0, BOut 0)] |}], P) /\ num_buffers (P false) = 2.
Proof. eexists. split; [vm_compute; reflexivity | reflexivity]. Qed.
Example demo_feeds : feeds demo 6 3.
Proof.
  exists 0, (sigc 2 0 3 0). split; [repeat split; cbn; tauto|].
  apply (origin_outlet demo 2 0 [5; 7; 6] [5] [7] 7 (sigc 6 0 7 0)); try reflexivity.
  - repeat split; cbn; tauto.
  - now apply (origin_leaf demo 6 0 true [F; F] [F] None).
Qed.

(** ** C46, refuted: feedback through messages only.
    osc~ 1 -> *~ 2 -> env~ 3, env~ 3 => line~ 4 (message), line~ 4 -> *~ 2 (gain), *~ 2 -> dac~ 5.
    No signal cycle, but env~ is ordered before the product it analyses, and gets the zero buffer. *)
Definition follower : patch :=
  {| kind_of := fun o => nth o [Graph [1; 2; 3; 4; 5] [] []; Leaf true [] [F] None; Leaf true [F; F] [F] None;
                                Leaf true [F] [None] None; Leaf true [None] [F] None; Leaf true [F; F] [F] (Some 0)] Outlet;
     conns := [sigc 1 0 2 0; sigc 4 0 2 1; sigc 2 0 3 0; ctlc 3 0 4 0; sigc 2 0 5 0] |}.
Theorem control_feedback_order_refuted :
  (exists rank, forall c, In c follower.(conns) -> c.(c_sig) = true -> rank c.(c_from) < rank c.(c_to)) /\
  feeds follower 2 3 /\
  exists code P, compile 1 follower 0 = Some (code, P) /\
    map i_obj code = [1; 3; 4; 2; 5] /\
    forall (A : Type) (f : nat -> list A -> nat -> A) (m : mem), In (3, [m BZero]) (fst (exec f code m)).
Proof.
  split; [|split].
  - exists (fun o => match o with 1 => 0 | 4 => 0 | 2 => 1 | _ => 2 end). intros c H. cbn in H.
    repeat (destruct H as [<- | H]); try (destruct H; fail); cbn; intros E; try discriminate; lia.
  - exists 0, (sigc 2 0 3 0). split; [repeat split; cbn; tauto|]. now apply (origin_leaf follower 2 0 true [F; F] [F] None).
  - eexists. eexists. split; [vm_compute; reflexivity|]. split; [reflexivity|]. intros A f m. cbn. tauto.
Qed.

(** ** C47, refuted: a subpatch that only passes a signal through (inlet~ 5 -> outlet~ 6) is not
    processed, and what is connected to it reads silence. *)
Definition passthrough : patch :=
  {| kind_of := fun o => nth o [Graph [1; 2; 3] [] []; Leaf true [] [F] None; Graph [5; 6] [5] [6];
                                Leaf true [F; F] [F] (Some 0); Outlet; Inlet None; Outlet] Outlet;
     conns := [sigc 1 0 2 0; sigc 5 0 6 0; sigc 2 0 3 0] |}.
Theorem pass_through_subpatch_refuted :
  (forall c, In c passthrough.(conns) -> c.(c_from) < c.(c_to)) /\
  (forall (A : Type) (f : nat -> list A -> nat -> A) zero inp, inlet_value passthrough f zero inp 3 0 (f 1 [] 0)) /\
  exists code P, compile 3 passthrough 0 = Some (code, P) /\
    map i_obj code = [1; 3] /\
    forall (A : Type) (f : nat -> list A -> nat -> A) (m : mem),
      snd (exec f code m) (BOut 0) = f 3 [m BZero; m (BOut 0)] 0.
Proof.
  split; [|split].
  - intros c H. cbn in H. repeat (destruct H as [<- | H]); try (destruct H; fail); cbn; lia.
  - intros A f zero inp. apply (value_connected passthrough f zero inp 3 0 (sigc 2 0 3 0)); [repeat split; cbn; tauto|].
    apply (value_outlet passthrough f zero inp 2 0 [5; 6] [5] [6] 6); try reflexivity.
    apply (value_connected passthrough f zero inp 6 0 (sigc 5 0 6 0)); [repeat split; cbn; tauto|].
    apply (value_inlet passthrough f zero inp 5 2 0 [5; 6] [5] [6]); try reflexivity.
    apply (value_connected passthrough f zero inp 2 0 (sigc 1 0 2 0)); [repeat split; cbn; tauto|].
    apply (value_leaf passthrough f zero inp 1 0 true [] [F] (fun _ => zero) eq_refl). intros i [].
  - eexists. eexists. split; [vm_compute; reflexivity|]. split; reflexivity.
Qed.

(** ** C47, refuted: subpatch A feeds B, and B feeds another inlet of A that does not influence what A
    sends to B.  There is no signal loop between signal objects, but B reads silence.
    Subpatch 1: inlet 5, object 6 with its own source -> outlet 8; inlet 5 -> object 7 -> outlet 9.
    1.0 -> 2 -> 1's inlet; 1.1 -> dac~ 3. *)
Definition woven : patch :=
  {| kind_of := fun o => nth o [Graph [1; 2; 3] [] []; Graph [5; 6; 7; 8; 9] [5] [8; 9]; Leaf true [F] [F] None;
                                Leaf true [F; F] [F] (Some 0); Outlet; Inlet None; Leaf true [] [F] None; Leaf true [F] [F] None; Outlet; Outlet] Outlet;
     conns := [sigc 6 0 8 0; sigc 5 0 7 0; sigc 7 0 9 0; sigc 1 0 2 0; sigc 2 0 1 0; sigc 1 1 3 0] |}.
Theorem woven_subpatches_refuted :
  (forall (A : Type) (f : nat -> list A -> nat -> A) zero inp, inlet_value woven f zero inp 2 0 (f 6 [] 0)) /\
  exists code P, compile 3 woven 0 = Some (code, P) /\
    map i_obj code = [2; 6; 7; 3] /\
    forall (A : Type) (f : nat -> list A -> nat -> A) (m : mem), nth_error (fst (exec f code m)) 0 = Some (2, [m BZero]).
Proof.
  split.
  - intros A f zero inp. apply (value_connected woven f zero inp 2 0 (sigc 1 0 2 0)); [repeat split; cbn; tauto|].
    apply (value_outlet woven f zero inp 1 0 [5; 6; 7; 8; 9] [5] [8; 9] 8); try reflexivity.
    apply (value_connected woven f zero inp 8 0 (sigc 6 0 8 0)); [repeat split; cbn; tauto|].
    apply (value_leaf woven f zero inp 6 0 true [] [F] (fun _ => zero) eq_refl). intros i [].
  - eexists. eexists. split; [vm_compute; reflexivity|]. split; reflexivity.
Qed.

Print Assumptions ordering_terminates.
Print Assumptions ordering_sources_first.
Print Assumptions process_list_order.
Print Assumptions compiled_patch_computes_its_dataflow.
Print Assumptions signals_are_unique.
Print Assumptions control_feedback_order_refuted.
Print Assumptions pass_through_subpatch_refuted.
Print Assumptions woven_subpatches_refuted.
