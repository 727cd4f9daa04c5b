(** fma_replacement keeps patches well-formed; all replacements of a patch. *)
From Verif Require Import GraphModel GraphSpec RewriteModel RewriteSpec RewriteProofs RewriteProofs2 RewriteProofs4.
Require Import ZifyBool.

Section Step.
Context (G o : nat) (w : work) (root depth : nat) (level rank : nat -> nat) (a i : nat) (t : op).
Let g := w.(pt).
Let n := w.(nxt).
Context (Hfr : fresh_from g n) (WF : well_formed g root depth level rank) (AR : arithmetic w) (Hin : inside g o G).
Context (HM : fma_match w o = Some (a, i, t)).
Let w' := replace_fma G o w.
Let g' := w'.(pt).

Let Lo : o < n := lt_o o w root depth level rank a i t Hfr WF AR HM.
Let La : a < n := lt_a o w root depth level rank a i t Hfr WF AR HM.
Let Hoa : o <> a := o_ne_a o w root depth level rank a i t WF AR HM.
Let Hroa : rank o < rank a := rank_oa o w root depth level rank a i t WF AR HM.
Let Ko : kind_of g o = Leaf true [Some false; Some false] [Some false] None := kind_o o w a i t AR HM.
Let Ka : kind_of g a = Leaf true [Some false; Some false] [Some false] None := kind_a' o w root depth level rank a i t WF AR HM.
Let Ga : inside g a G := in_G_a G o w root depth level rank a i t WF AR Hin HM.
Let Knew : kind_of g' n = Leaf true [Some false; Some false; Some false] [Some false] None := fma_kind_new G o w a i t HM.
Let Kgone x (H : x = o \/ x = a) : kind_of g' x = Outlet := fma_kind_gone G o w root depth level rank a i t Hfr WF AR HM x H.
Let Kbeyond x (H : n < x) : kind_of g' x = Outlet := fma_kind_beyond G o w root depth level rank a i t Hfr WF AR Hin HM x H.
Let Kold x (L : x < n) (N1 : x <> o) (N2 : x <> a) (N3 : x <> G) : kind_of g' x = kind_of g x := fma_kind_old G o w a i t HM x L N1 N2 N3.

Lemma lt_inside x H : inside g x H -> x < n /\ H < n.
Proof.
  unfold inside. destruct (kind_of g H) as [ | | | objs il ol] eqn:E; try tauto. intros Hx. split.
  - apply (fr_lets _ _ Hfr H objs il ol x E). apply in_or_app. now left.
  - destruct (Nat.lt_ge_cases H n) as [ | Hge]; [assumption | ]. rewrite (fr_kind _ _ Hfr H Hge) in E. discriminate.
Qed.
Lemma fma_inside x H : inside g' x H <-> (inside g x H /\ x <> o /\ x <> a) \/ (H = G /\ x = n).
Proof.
  destruct (fma_kind_G G o w root depth level rank a i t Hfr WF AR Hin HM) as (ob & il0 & ol0 & EG & EG').
  fold w' in EG'. fold g' in EG'. fold n in EG'. fold g in EG. split.
  - unfold inside at 1. destruct (kind_of g' H) as [ | | | objs il ol] eqn:E; try tauto. intros Hx.
    destruct (fma_graphs G o w root depth level rank a i t Hfr WF AR Hin HM _ _ _ _ E) as (L & N1 & N2 & ob2 & E2 & [[-> ->] | [N3 ->]]).
    + apply in_app_or in Hx. destruct Hx as [Hx | [<- | []]]; [left | right; auto].
      apply filter_In in Hx. destruct Hx as [Hx Hne]. unfold inside, g. rewrite E2. split; [exact Hx | ]. lia.
    + left. assert (Hi : inside g x H) by (unfold inside, g; now rewrite E2). split; [exact Hi | ].
      split; intros ->; apply N3; [apply (wf_parent _ _ _ _ _ WF o) | apply (wf_parent _ _ _ _ _ WF a)]; auto.
  - intros [(Hx & N1 & N2) | [-> ->]].
    + destruct (Nat.eq_dec H G) as [-> | Hne].
      * unfold inside in *. rewrite EG in Hx. rewrite EG'. apply in_or_app. left. apply filter_In. split; [exact Hx | lia].
      * unfold inside in Hx |- *. destruct (kind_of g H) eqn:E; try contradiction. rewrite Kold; [now rewrite E | | | | exact Hne]; try congruence.
        apply (lt_inside x H). unfold inside. now rewrite E.
    + unfold inside. rewrite EG'. apply in_or_app. right. now left.
Qed.
Lemma fma_processes x : processes g x -> x <> o -> x <> a -> processes g' x.
Proof.
  assert (Pn : processes g' n) by (eapply proc_leaf; exact Knew).
  assert (PG : processes g' G) by (apply (proc_inside g' n G); [apply fma_inside; auto | exact Pn]).
  induction 1 as [y ins outs dac Hy | y H Hi Hp IH | objs il' ol' y ch H EH Hy Ey]; intros N1 N2.
  - destruct (Nat.eq_dec y G) as [-> | Hne]; [exact PG | ]. apply (proc_leaf g' y ins outs dac). rewrite Kold; auto.
    destruct (Nat.lt_ge_cases y n) as [ | Hge]; [assumption | ]. rewrite (fr_kind _ _ Hfr y Hge) in Hy. discriminate.
  - destruct (Nat.eq_dec H G) as [-> | Hne]; [exact PG | ].
    assert (y <> o /\ y <> a) as [N3 N4].
    { split; intros ->; apply Hne; [apply (wf_parent _ _ _ _ _ WF o) | apply (wf_parent _ _ _ _ _ WF a)]; auto. }
    apply (proc_inside g' y H); [apply fma_inside; auto | auto].
  - destruct (Nat.eq_dec H G) as [-> | Hne]; [exact PG | ].
    assert (LH : H < n). { destruct (Nat.lt_ge_cases H n) as [ | Hge]; [assumption | ]. rewrite (fr_kind _ _ Hfr H Hge) in EH. discriminate. }
    apply (proc_adc g' objs il' ol' y ch H); auto; [rewrite Kold; auto | ].
    rewrite Kold; auto; [ | congruence | congruence | ].
    + apply (fr_lets _ _ Hfr _ _ _ _ y EH). apply in_or_app. right. apply in_or_app. now left.
    + intros ->. pose proof Hin as Hin2. unfold inside in Hin2. rewrite Ey in Hin2. exact Hin2.
Qed.
Definition level' x := if Nat.eqb x n then level a else level x.
Definition rank' x := if Nat.eqb x n then rank a else rank x.
Lemma level_old x : x < n -> level' x = level x. Proof. intros H. unfold level'. replace (Nat.eqb x n) with false by lia. reflexivity. Qed.
Lemma rank_old x : x < n -> rank' x = rank x. Proof. intros H. unfold rank'. replace (Nat.eqb x n) with false by lia. reflexivity. Qed.
Lemma level_n : level' n = level a. Proof. unfold level'. now rewrite Nat.eqb_refl. Qed.
Lemma rank_n : rank' n = rank a. Proof. unfold rank'. now rewrite Nat.eqb_refl. Qed.

(** The connections of the new patch *)
Lemma fma_conns c : In c (conns g') ->
  (exists c0, In c0 (conns g) /\ c_to c0 = o /\ c = retarget c0 (n, c_in c0) /\ c_in c0 <= 1 /\ c_from c0 <> o /\ c_from c0 <> a) \/
  (exists c0, In c0 (conns g) /\ c_to c0 = a /\ c = retarget c0 (n, 2) /\ c_from c0 <> o /\ c_from c0 <> a) \/
  (In c (conns g) /\ c_from c <> o /\ c_from c <> a /\ c_to c <> o /\ c_to c <> a) \/
  (exists c0, In c0 (conns g) /\ c_from c0 = a /\ c_out c0 = 0 /\ c = refrom c0 n /\ c_to c0 <> o /\ c_to c0 <> a).
Proof.
  intros H. pose proof (fun c0 H0 => fi_cases o w root depth level rank a i t WF AR HM c0 H0) as FC.
  destruct (in_new G o w root depth level rank a i t WF AR HM c H) as (c0 & [(H0 & [(E & N1 & N2) | (E & E2 & E3 & E4)] & N3) | (H0 & E1 & E & N1 & N2)]).
  - destruct (FC c0 H0) as [(K & _) | [(K & K2 & K3) | [(K & K2 & K3) | (K & K2 & K3)]]].
    + congruence.
    + right; left. exists c0. rewrite E, K3. auto.
    + exfalso. destruct (the_conn o w root depth level rank a i t WF AR HM) as (c1 & C1 & C2 & C3 & C4 & C5 & C6).
      assert (c0 = c1); [ | subst c1; congruence].
      pose proof (wf_single _ _ _ _ _ WF a i) as L. rewrite signals_at in L.
      assert (S0 : forall c, In c (conns g) -> c_to c = a -> c_sig c = true).
      { intros x X1 X2. apply (sig_in o w a i t AR HM x X1). auto. }
      apply (in_len1 _ _ _ L); apply filter_In; (split; [assumption | ]); apply hits_iff; repeat split; auto.
    + right; right; left. rewrite E, K3. auto.
  - right; right; right. exists c0. repeat split; auto.
    pose proof (wf_rank _ _ _ _ _ WF c0 H0) as R. rewrite E2 in R. intros K. rewrite K in R. lia.
  - left. exists c0. destruct (FC c0 H0) as [(K & K2 & K3) | [(K & K2 & K3) | [(K & K2 & K3) | (K & K2 & K3)]]]; try congruence.
    rewrite E, K2. repeat split; auto.
Qed.
Lemma not_graph x : x = o \/ x = a -> forall p q r, kind_of g x <> Graph p q r.
Proof. intros [-> | ->] p q r; congruence. Qed.
Lemma inlets_same x : x < n -> x <> o -> x <> a -> num_inlets g' x = num_inlets g x /\ num_outlets g' x = num_outlets g x.
Proof.
  intros L N1 N2. unfold num_inlets, num_outlets. destruct (Nat.eq_dec x G) as [-> | Hne]; [ | now rewrite Kold].
  destruct (fma_kind_G G o w root depth level rank a i t Hfr WF AR Hin HM) as (ob & il0 & ol0 & EG & EG').
  fold w' in EG'. fold g' in EG'. fold g in EG. rewrite EG, EG'. auto.
Qed.
Lemma gr x objs il ol : kind_of g' x = Graph objs il ol ->
  x < n /\ x <> o /\ x <> a /\ exists ob, kind_of g x = Graph ob il ol /\ (x = G /\ objs = filter (fun y => negb (Nat.eqb y o || Nat.eqb y a)) ob ++ [n] \/ x <> G /\ objs = ob).
Proof. exact (fma_graphs G o w root depth level rank a i t Hfr WF AR Hin HM x objs il ol). Qed.
Lemma let_kind K objs il ol x : kind_of g K = Graph objs il ol -> In x objs -> x <> o -> x <> a ->
  (forall p q r, kind_of g x <> Graph p q r) \/ (forall p q r, kind_of g' x <> Graph p q r) -> kind_of g' x = kind_of g x.
Proof.
  intros E Hx N1 N2 HH. apply Kold; auto; [apply (lt_inside x K); unfold inside; now rewrite E | ]. intros ->.
  destruct (fma_kind_G G o w root depth level rank a i t Hfr WF AR Hin HM) as (ob & il0 & ol0 & EG & EG').
  destruct HH as [HH | HH]; eapply HH; [exact EG | exact EG'].
Qed.

Lemma fma_reduced : reduced g' root depth level' rank'.
Proof.
  constructor.
  - destruct (wf_root _ _ _ _ _ WF) as ((ob & il & ol & E) & L & D).
    assert (Hroot : root < n). { destruct (Nat.lt_ge_cases root n) as [ | Hge]; [assumption | ]. rewrite (fr_kind _ _ Hfr root Hge) in E. discriminate. }
    split; [ | split; [now rewrite level_old | exact D]].
    destruct (Nat.eq_dec root G) as [Er | Hne].
    + rewrite Er. destruct (fma_kind_G G o w root depth level rank a i t Hfr WF AR Hin HM) as (? & ? & ? & _ & E'); eauto.
    + rewrite Kold; [eauto | auto | congruence | congruence | auto].
  - intros x H H' A B. apply fma_inside in A, B. destruct A as [(A & _) | [-> ->]], B as [(B & _) | [-> E]]; auto.
    + apply (wf_parent _ _ _ _ _ WF x); auto.
    + subst x. apply lt_inside in A. lia.
    + apply lt_inside in B. lia.
  - intros x H A. apply fma_inside in A. destruct A as [(A & _) | [-> ->]].
    + pose proof (lt_inside _ _ A). rewrite !level_old by lia. now apply (wf_level _ _ _ _ _ WF).
    + pose proof (lt_inside _ _ Hin). rewrite level_n, level_old by lia. now apply (wf_level _ _ _ _ _ WF).
  - intros H objs il ol E. destruct (gr _ _ _ _ E) as (L & N1 & N2 & ob & E2 & HC).
    destruct (wf_inlets _ _ _ _ _ WF H ob il ol E2) as (D1 & D2 & I1 & I2). split; [exact D1 | ]. split; [exact D2 | ].
    assert (HI : forall x, In x objs <-> (In x ob /\ x <> o /\ x <> a) \/ (H = G /\ x = n)).
    { intros x. pose proof (fma_inside x H) as F. unfold inside in F. rewrite E in F. fold g in E2. rewrite E2 in F. exact F. }
    assert (Hg : forall x, x = n -> exists p q r s, kind_of g' x = Leaf p q r s) by (intros x ->; eauto).
    split; intros x; [rewrite I1 | rewrite I2]; rewrite HI; split.
    + intros [A [d B]]. assert (x <> o) by (intros ->; fold g in B; congruence). assert (x <> a) by (intros ->; fold g in B; congruence).
      split; [left; auto | ]. exists d. rewrite (let_kind H ob il ol); auto. left. intros. fold g in B. congruence.
    + intros [[(A & M1 & M2) | [-> ->]] [d B]]; [ | congruence]. split; [exact A | ]. exists d. fold g. rewrite <- (let_kind H ob il ol x); auto. right. intros. congruence.
    + intros [A B]. assert (x <> o) by (intros ->; fold g in B; congruence). assert (x <> a) by (intros ->; fold g in B; congruence).
      split; [left; auto | ]. rewrite (let_kind H ob il ol); auto. left. intros. fold g in B. congruence.
    + intros [[(A & M1 & M2) | [-> ->]] B]; [ | congruence]. split; [exact A | ]. fold g. rewrite <- (let_kind H ob il ol x); auto. right. intros. congruence.
  - intros c Hc. destruct (fma_conns c Hc) as [(c0 & H0 & E & -> & E2 & M1 & M2) | [(c0 & H0 & E & -> & M1 & M2) | [(H0 & M1 & M2 & M3 & M4) | (c0 & H0 & E & E2 & -> & M3 & M4)]]].
    + destruct (wf_conn _ _ _ _ _ WF c0 H0) as ((K & A & B) & C & D). rewrite E in B. rewrite (wf_parent _ _ _ _ _ WF _ _ _ B Hin) in A.
      pose proof (lt_inside _ _ A). cbn [retarget c_from c_to c_in c_out fst snd]. destruct (inlets_same (c_from c0)) as [_ ->]; auto; [tauto | ].
      split; [exists G; split; apply fma_inside; auto | ]. unfold num_inlets. rewrite Knew. cbn. split; [lia | exact D].
    + destruct (wf_conn _ _ _ _ _ WF c0 H0) as ((K & A & B) & C & D). rewrite E in B. rewrite (wf_parent _ _ _ _ _ WF _ _ _ B Ga) in A.
      pose proof (lt_inside _ _ A). cbn [retarget c_from c_to c_in c_out fst snd]. destruct (inlets_same (c_from c0)) as [_ ->]; auto; [tauto | ].
      split; [exists G; split; apply fma_inside; auto | ]. unfold num_inlets. rewrite Knew. cbn. split; [lia | exact D].
    + destruct (wf_conn _ _ _ _ _ WF c H0) as ((K & A & B) & C & D). pose proof (fr_conn _ _ Hfr c H0).
      destruct (inlets_same (c_from c)) as [_ ->]; try tauto. destruct (inlets_same (c_to c)) as [-> _]; try tauto.
      split; [exists K; split; apply fma_inside; auto | auto].
    + destruct (wf_conn _ _ _ _ _ WF c0 H0) as ((K & A & B) & C & D). rewrite E in A. rewrite (wf_parent _ _ _ _ _ WF _ _ _ A Ga) in B.
      pose proof (fr_conn _ _ Hfr c0 H0). cbn [refrom c_from c_to c_in c_out]. destruct (inlets_same (c_to c0)) as [-> _]; try tauto.
      split; [exists G; split; apply fma_inside; auto | ]. split; [exact C | ]. rewrite E2. unfold num_outlets. rewrite Knew. cbn. lia.
  - intros c Hc. destruct (fma_conns c Hc) as [(c0 & H0 & E & -> & E2 & M1 & M2) | [(c0 & H0 & E & -> & M1 & M2) | [(H0 & M1 & M2 & M3 & M4) | (c0 & H0 & E & E2 & -> & M3 & M4)]]].
    + pose proof (wf_rank _ _ _ _ _ WF c0 H0) as R. pose proof (fr_conn _ _ Hfr c0 H0). cbn [retarget c_from c_to fst]. rewrite rank_n, rank_old by lia. rewrite E in R. lia.
    + pose proof (wf_rank _ _ _ _ _ WF c0 H0) as R. pose proof (fr_conn _ _ Hfr c0 H0). cbn [retarget c_from c_to fst]. rewrite rank_n, rank_old by lia. rewrite E in R. lia.
    + pose proof (fr_conn _ _ Hfr c H0). rewrite !rank_old by lia. now apply (wf_rank _ _ _ _ _ WF).
    + pose proof (wf_rank _ _ _ _ _ WF c0 H0) as R. pose proof (fr_conn _ _ Hfr c0 H0). cbn [refrom c_from c_to]. rewrite rank_n, rank_old by lia. rewrite E in R. lia.
  - assert (HS : forall c0, In c0 (conns g) -> c_sig c0 = true -> c_from c0 <> o -> c_from c0 <> a ->
        match kind_of g' (c_from c0) with
        | Leaf sg ins outs dac => sg = true /\ dac = None /\ exists t, nth_error outs (c_out c0) = Some (Some t)
        | Inlet _ => True | Outlet => False | Graph _ _ _ => processes g' (c_from c0) end).
    { intros c0 H0 Hs M1 M2. pose proof (wf_source _ _ _ _ _ WF c0 H0 Hs) as Q. pose proof (fr_conn _ _ Hfr c0 H0).
      destruct (Nat.eq_dec (c_from c0) G) as [E | Hne].
      - rewrite E in *. destruct (fma_kind_G G o w root depth level rank a i t Hfr WF AR Hin HM) as (? & ? & ? & K1 & K2).
        fold w' in K2. fold g' in K2. fold g in K1. rewrite K2. rewrite K1 in Q. apply fma_processes; auto.
      - rewrite Kold by tauto. fold g in Q. destruct (kind_of g (c_from c0)); auto. now apply fma_processes. }
    intros c Hc Hs. destruct (fma_conns c Hc) as [(c0 & H0 & E & -> & E2 & M1 & M2) | [(c0 & H0 & E & -> & M1 & M2) | [(H0 & M1 & M2 & M3 & M4) | (c0 & H0 & E & E2 & -> & M3 & M4)]]].
    + exact (HS c0 H0 Hs M1 M2).
    + exact (HS c0 H0 Hs M1 M2).
    + exact (HS c H0 Hs M1 M2).
    + cbn [refrom c_from c_out]. rewrite Knew. rewrite E2. cbn. eauto.
  - intros c objs il ol x ch Hc Hs E En. destruct (gr _ _ _ _ E) as (L & N1 & N2 & ob & E2 & _).
    assert (HK : forall c0, In c0 (conns g) -> c_sig c0 = true -> c_to c0 = c_to c -> c_in c0 = c_in c -> kind_of g' x <> Inlet (Some ch)).
    { intros c0 H0 S0 T0 I0 F. assert (Hx : In x ob). { destruct (wf_inlets _ _ _ _ _ WF _ _ _ _ E2) as (_ & _ & I1 & _). apply nth_error_In in En. now apply I1 in En. }
      apply (wf_adc _ _ _ _ _ WF c0 ob il ol x ch H0 S0); [congruence | congruence | ].
      fold g. rewrite <- (let_kind (c_to c) ob il ol x); auto.
      - intros ->. rewrite Kgone in F by auto. discriminate.
      - intros ->. rewrite Kgone in F by auto. discriminate.
      - right. intros. congruence. }
    destruct (fma_conns c Hc) as [(c0 & H0 & E3 & -> & E4 & M1 & M2) | [(c0 & H0 & E3 & -> & M1 & M2) | [(H0 & M1 & M2 & M3 & M4) | (c0 & H0 & E3 & E4 & -> & M3 & M4)]]].
    + cbn [retarget c_to fst] in L. lia.
    + cbn [retarget c_to fst] in L. lia.
    + eapply HK; eauto.
    + apply (HK c0); auto.
  - intros x sg ins outs ch E. assert (Hx : x < n /\ x <> o /\ x <> a).
    { destruct (Nat.lt_trichotomy x n) as [L | [-> | L]]; [ | congruence | rewrite Kbeyond in E by auto; discriminate].
      split; [exact L | ]. split; intros ->; rewrite Kgone in E by auto; discriminate. }
    destruct Hx as (L & N1 & N2). assert (E2 : kind_of g x = Leaf sg ins outs (Some ch)).
    { rewrite Kold in E; auto. intros ->. destruct (fma_kind_G G o w root depth level rank a i t Hfr WF AR Hin HM) as (? & ? & ? & _ & K). fold w' in K. fold g' in K. congruence. }
    destruct (wf_dac _ _ _ _ _ WF _ _ _ _ _ E2) as (A & B & C & D). repeat split; auto.
    unfold at_inlet. apply filter_none. intros c Hc. apply not_true_iff_false. intros F. apply andb_true_iff in F. rewrite !Nat.eqb_eq in F.
    destruct F as [F1 F2]. assert (HN : forall c1, In c1 (conns g) -> c_to c1 = x -> c_in c1 = 1 -> False).
    { intros c1 K1 K2 K3. assert (In c1 (at_inlet g x 1)) as K4 by (unfold at_inlet; apply filter_In; rewrite K2, K3, !Nat.eqb_refl; auto). fold g in D. rewrite D in K4. destruct K4. }
    destruct (fma_conns c Hc) as [(c0 & H0 & E3 & -> & E4 & M1 & M2) | [(c0 & H0 & E3 & -> & M1 & M2) | [(H0 & M1 & M2 & M3 & M4) | (c0 & H0 & E3 & E4 & -> & M3 & M4)]]];
      cbn [retarget refrom c_to c_in fst snd] in *; try lia; eapply HN; eauto.
Qed.
Lemma fma_well_formed : well_formed g' root depth level' rank'.
Proof.
  split; [exact fma_reduced | ]. intros x e. rewrite signals_at.
  pose proof (fun x e => wf_single _ _ _ _ _ WF x e) as L.
  destruct (Nat.lt_trichotomy x n) as [Lx | [-> | Lx]].
  - destruct (Nat.eq_dec x o) as [-> | N1]; [unfold g', w'; erewrite at_gone by eauto; cbn; lia | ].
    destruct (Nat.eq_dec x a) as [-> | N2]; [unfold g', w'; erewrite at_gone by eauto; cbn; lia | ].
    unfold g', w'. erewrite at_old by eauto. rewrite map_length. rewrite <- signals_at. apply L.
  - unfold g', w', n. erewrite at_new by eauto. rewrite map_length. destruct (Nat.leb e 1); [rewrite <- signals_at; apply L | ].
    destruct (Nat.eqb e 2); [rewrite <- signals_at; apply L | cbn; lia].
  - unfold g', w'. erewrite at_beyond by eauto. cbn. lia.
Qed.
Lemma fma_fresh : fresh_from g' (nxt w').
Proof.
  assert (En : nxt w' = S n) by (eapply fma_nxt; eassumption). rewrite En. constructor.
  - intros x Hx. apply Kbeyond. lia.
  - intros c Hc. destruct (fma_conns c Hc) as [(c0 & H0 & E & -> & E2 & M1 & M2) | [(c0 & H0 & E & -> & M1 & M2) | [(H0 & M1 & M2 & M3 & M4) | (c0 & H0 & E & E2 & -> & M3 & M4)]]];
      cbn [retarget refrom c_from c_to fst]; [pose proof (fr_conn _ _ Hfr c0 H0) | pose proof (fr_conn _ _ Hfr c0 H0) | pose proof (fr_conn _ _ Hfr c H0) | pose proof (fr_conn _ _ Hfr c0 H0)]; lia.
  - intros K objs il ol x E Hx. destruct (gr _ _ _ _ E) as (L & N1 & N2 & ob & E2 & HC). apply in_app_or in Hx. destruct Hx as [Hx | Hx].
    + destruct HC as [[_ ->] | [_ ->]].
      * apply in_app_or in Hx. destruct Hx as [Hx | [<- | []]]; [ | lia]. apply filter_In in Hx.
        pose proof (fr_lets _ _ Hfr _ _ _ _ x E2 (in_or_app _ _ _ (or_introl (proj1 Hx)))). lia.
      * pose proof (fr_lets _ _ Hfr _ _ _ _ x E2 (in_or_app _ _ _ (or_introl Hx))). lia.
    + pose proof (fr_lets _ _ Hfr _ _ _ _ x E2 (in_or_app _ _ _ (or_intror Hx))). lia.
Qed.
Lemma fma_arithmetic : arithmetic w'.
Proof.
  assert (Hty : forall x, ty w' x = if Nat.eqb x n then t else if Nat.eqb x o || Nat.eqb x a then Other else ty w x) by (intros x; eapply fma_ty; eassumption).
  destruct (match_facts o w a i t HM) as (_ & Ht & _).
  constructor.
  - intros x. rewrite Hty. destruct (Nat.eqb_spec x n) as [-> | Hn].
    + fold g'. rewrite Knew. destruct Ht as [[_ ->] | [_ [_ ->]]]; reflexivity.
    + destruct (Nat.eqb x o || Nat.eqb x a) eqn:E; [exact I | ].
      pose proof (ar_kind _ AR x) as K. destruct (ty w x) eqn:Et; auto; fold g';
      (assert (Hx : x <> G) by (intros ->; destruct (G_facts G o w root depth level rank a i t Hfr WF AR Hin HM) as (_ & _ & _ & ? & ? & ? & F); try destruct K as [d K]; congruence));
      (assert (Lx : x < n) by (destruct (Nat.lt_ge_cases x n) as [ | Hge]; [assumption | ]; pose proof (fr_kind _ _ Hfr x Hge) as F; unfold g in F; try destruct K as [d K]; congruence));
      (rewrite Kold; [exact K | exact Lx | lia | lia | exact Hx]).
  - intros c Hc. rewrite !Hty. intros HO. pose proof (fun c H E => sig_in o w a i t AR HM c H E) as SI.
    destruct (fma_conns c Hc) as [(c0 & H0 & E & -> & E2 & M1 & M2) | [(c0 & H0 & E & -> & M1 & M2) | [(H0 & M1 & M2 & M3 & M4) | (c0 & H0 & E & E2 & -> & M3 & M4)]]].
    + apply (SI c0); auto.
    + apply (SI c0); auto.
    + pose proof (fr_conn _ _ Hfr c H0). apply (ar_conn _ AR c H0).
      replace (Nat.eqb (c_from c) n) with false in HO by lia. replace (Nat.eqb (c_to c) n) with false in HO by lia.
      replace (Nat.eqb (c_from c) o || Nat.eqb (c_from c) a) with false in HO by lia. replace (Nat.eqb (c_to c) o || Nat.eqb (c_to c) a) with false in HO by lia. exact HO.
    + apply (SI c0); auto.
Qed.
End Step.
