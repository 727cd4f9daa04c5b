(** All replacements; the signals of a well-formed patch are the solution of its equations. *)
From Verif Require Import GraphModel GraphSpec RewriteModel RewriteSpec RewriteProofs RewriteProofs2 RewriteProofs3 RewriteProofs4 RewriteProofs5.
Require Import ZifyBool.

Definition still (w w' : work) (x : nat) : Prop := x < nxt w /\ exists H, inside (pt w') x H.
Record fused (root depth : nat) (w w' : work) : Prop := {
  fu_nxt : nxt w <= nxt w';
  fu_fresh : fresh_from (pt w') (nxt w');
  fu_wf : exists level rank, well_formed (pt w') root depth level rank;
  fu_ar : arithmetic w';
  fu_inside : forall x H, x < nxt w -> inside (pt w') x H -> inside (pt w) x H;
  fu_keep : forall x H, inside (pt w) x H -> inside (pt w') x H \/ (ty w x = Mul \/ ty w x = Add \/ ty w x = Sub) /\ exists ins outs, kind_of (pt w) x = Leaf true ins outs None;
  fu_kind : forall x, still w w' x -> (forall p q r, kind_of (pt w') x <> Graph p q r) -> kind_of (pt w') x = kind_of (pt w) x;
  fu_graph : forall x, (exists p q r, kind_of (pt w) x = Graph p q r) -> exists p q r, kind_of (pt w') x = Graph p q r;
  fu_graph_back : forall x, (exists p q r, kind_of (pt w') x = Graph p q r) -> exists p q r, kind_of (pt w) x = Graph p q r;
  fu_dac : forall x sg ins outs ch, kind_of (pt w') x = Leaf sg ins outs (Some ch) -> kind_of (pt w) x = Leaf sg ins outs (Some ch);
  fu_ty : forall x, still w w' x -> ty w' x = ty w x;
  fu_sub : (forall x, ty w x <> Sub) -> forall x, ty w' x <> Sub;
  fu_sol : forall (A : Type) (add sub mul : A -> A -> A) zero inp b f0,
    (forall x y, add x y = add y x) -> (b = Neon8 -> forall x, ty w x <> Sub) ->
    (forall V, solution add zero inp (pt w) (kernels add sub mul b (ty w) f0) V ->
       exists V', solution add zero inp (pt w') (kernels add sub mul b (ty w') f0) V' /\
         (forall x j, x < nxt w -> V' x j = V x j) /\
         forall x e, still w w' x -> inlet_sum add zero (pt w') V' x e = inlet_sum add zero (pt w) V x e) /\
    (forall V', solution add zero inp (pt w') (kernels add sub mul b (ty w') f0) V' ->
       exists V, solution add zero inp (pt w) (kernels add sub mul b (ty w) f0) V /\
         (forall x j, still w w' x -> V x j = V' x j) /\
         forall x e, still w w' x -> inlet_sum add zero (pt w') V' x e = inlet_sum add zero (pt w) V x e) }.

Lemma fused_refl root depth level rank w : fresh_from (pt w) (nxt w) -> well_formed (pt w) root depth level rank -> arithmetic w -> fused root depth w w.
Proof.
  intros F W A. constructor; auto; [eauto | ]. intros T add sub mul zero inp b f0 _ _. split; intros V HV; exists V; auto.
Qed.
Lemma fused_trans root depth w1 w2 w3 : fresh_from (pt w1) (nxt w1) -> fused root depth w1 w2 -> fused root depth w2 w3 -> fused root depth w1 w3.
Proof.
  intros F0 F1 F2. assert (S13 : forall x, still w1 w3 x -> still w1 w2 x /\ still w2 w3 x).
  { intros x (L & H & K). pose proof (fu_nxt _ _ _ _ F1) as N. split; [ | split; [lia | eauto]]. split; [exact L | ]. exists H. apply (fu_inside _ _ _ _ F2); [lia | exact K]. }
  constructor.
  - pose proof (fu_nxt _ _ _ _ F1). pose proof (fu_nxt _ _ _ _ F2). lia.
  - apply F2.
  - apply F2.
  - apply F2.
  - intros x H L K. apply (fu_inside _ _ _ _ F1); auto. apply (fu_inside _ _ _ _ F2); auto. pose proof (fu_nxt _ _ _ _ F1). lia.
  - intros x H K. destruct (fu_keep _ _ _ _ F1 x H K) as [K2 | K2]; [ | now right]. destruct (fu_keep _ _ _ _ F2 x H K2) as [K3 | K3]; [now left | right].
    assert (S : still w1 w2 x) by (split; [apply (lt_inside w1 F0 x H K) | eauto]).
    destruct K3 as (K3 & ins & outs & K4). rewrite (fu_ty _ _ _ _ F1 x S) in K3. split; [exact K3 | ].
    exists ins, outs. rewrite <- K4. symmetry. apply (fu_kind _ _ _ _ F1); [exact S | intros; congruence].
  - intros x S HG. destruct (S13 x S) as [S1 S2]. rewrite (fu_kind _ _ _ _ F2 x S2 HG). apply (fu_kind _ _ _ _ F1 x S1).
    intros p q r E. destruct (fu_graph _ _ _ _ F2 x) as (p' & q' & r' & E'); [eauto | ]. eapply HG, E'.
  - intros x H. apply (fu_graph _ _ _ _ F2), (fu_graph _ _ _ _ F1), H.
  - intros x H. apply (fu_graph_back _ _ _ _ F1), (fu_graph_back _ _ _ _ F2), H.
  - intros x sg ins outs ch H. apply (fu_dac _ _ _ _ F1), (fu_dac _ _ _ _ F2), H.
  - intros x S. destruct (S13 x S) as [S1 S2]. rewrite (fu_ty _ _ _ _ F2 x S2). apply (fu_ty _ _ _ _ F1 x S1).
  - intros H. apply (fu_sub _ _ _ _ F2), (fu_sub _ _ _ _ F1), H.
  - intros A add sub mul zero inp b f0 Hc Hb.
    destruct (fu_sol _ _ _ _ F1 A add sub mul zero inp b f0 Hc Hb) as [A1 B1].
    destruct (fu_sol _ _ _ _ F2 A add sub mul zero inp b f0 Hc) as [A2 B2]; [intros E; apply (fu_sub _ _ _ _ F1), Hb, E | ]. split.
    + intros V HV. destruct (A1 V HV) as (V1 & H1 & E1 & I1). destruct (A2 V1 H1) as (V2 & H2 & E2 & I2). exists V2. split; [exact H2 | ]. split.
      * intros x j L. rewrite E2 by (pose proof (fu_nxt _ _ _ _ F1); lia). now apply E1.
      * intros x e S. destruct (S13 x S) as [S1 S2]. rewrite I2, I1 by auto. reflexivity.
    + intros V HV. destruct (B2 V HV) as (V2 & H2 & E2 & I2). destruct (B1 V2 H2) as (V1 & H1 & E1 & I1). exists V1. split; [exact H1 | ]. split.
      * intros x j S. destruct (S13 x S) as [S1 S2]. rewrite E1, E2 by auto. reflexivity.
      * intros x e S. destruct (S13 x S) as [S1 S2]. rewrite I2, I1 by auto. reflexivity.
Qed.

Lemma replace_fused root depth level rank G o w : fresh_from (pt w) (nxt w) -> well_formed (pt w) root depth level rank -> arithmetic w ->
  (ty w o = Mul -> inside (pt w) o G) -> 
  fused root depth w (replace_fma G o w) /\
  forall x H, ty (replace_fma G o w) x = Mul -> inside (pt w) x H -> inside (pt (replace_fma G o w)) x H /\ ty w x = Mul.
Proof.
  intros F W A Hin. destruct (fma_match w o) as [[[a i] t] | ] eqn:HM.
  2: { unfold replace_fma. rewrite HM. split; [eapply fused_refl; eassumption | auto]. }
  destruct (match_facts o w a i t HM) as (To & Ht & _). specialize (Hin To).
  pose proof (fma_inside G o w root depth level rank a i t F W A Hin HM) as HI.
  pose proof (fma_ty G o w a i t HM) as HT. pose proof (fma_nxt G o w a i t HM) as HN.
  pose proof (lt_o o w root depth level rank a i t F W A HM) as Lo. pose proof (lt_a o w root depth level rank a i t F W A HM) as La.
  assert (HS : forall x, still w (replace_fma G o w) x -> x <> o /\ x <> a /\ exists H, inside (pt w) x H).
  { intros x (L & H & K). apply HI in K. destruct K as [(K & N1 & N2) | [_ K]]; [ | lia]. eauto. }
  split.
  - constructor.
    + lia.
    + eapply fma_fresh; eassumption.
    + eexists. eexists. eapply fma_well_formed; eassumption.
    + eapply fma_arithmetic; eassumption.
    + intros x H L K. apply HI in K. destruct K as [(K & _) | [_ K]]; [exact K | lia].
    + intros x H K. pose proof (kind_o o w a i t A HM) as Ko. pose proof (kind_a' o w root depth level rank a i t W A HM) as Ka.
      destruct (Nat.eq_dec x o) as [-> | N1]; [right; eauto | ].
      destruct (Nat.eq_dec x a) as [-> | N2]; [right; split; [destruct Ht as [[Ht _] | [Ht _]]; auto | eauto] | ].
      left. apply HI. left. auto.
    + intros x S NG. destruct (HS x S) as (N1 & N2 & _). apply (fma_kind_old G o w a i t HM); auto; [apply S | ].
      intros ->. destruct (fma_kind_G G o w root depth level rank a i t F W A Hin HM) as (? & ? & ? & _ & K). eapply NG, K.
    + intros x (p & q & r & E). destruct (Nat.eq_dec x G) as [-> | N].
      * destruct (fma_kind_G G o w root depth level rank a i t F W A Hin HM) as (? & ? & ? & _ & K). eauto.
      * pose proof (kind_o o w a i t A HM) as Ko. pose proof (kind_a' o w root depth level rank a i t W A HM) as Ka.
        rewrite (fma_kind_old G o w a i t HM); [eauto | | congruence | congruence | exact N].
        destruct (Nat.lt_ge_cases x (nxt w)) as [ | Hge]; [assumption | ]. rewrite (fr_kind _ _ F x Hge) in E. discriminate.
    + intros x (p & q & r & E). destruct (fma_graphs G o w root depth level rank a i t F W A Hin HM _ _ _ _ E) as (_ & _ & _ & ob & E2 & _). eauto.
    + intros x sg ins outs ch E. destruct (Nat.lt_trichotomy x (nxt w)) as [L | [-> | L]].
      * destruct (Nat.eq_dec x o) as [-> | N1]; [rewrite (fma_kind_gone G o w root depth level rank a i t F W A HM) in E by auto; discriminate | ].
        destruct (Nat.eq_dec x a) as [-> | N2]; [rewrite (fma_kind_gone G o w root depth level rank a i t F W A HM) in E by auto; discriminate | ].
        rewrite (fma_kind_old G o w a i t HM) in E; auto.
        intros ->. destruct (fma_kind_G G o w root depth level rank a i t F W A Hin HM) as (? & ? & ? & _ & K). congruence.
      * rewrite (fma_kind_new G o w a i t HM) in E. discriminate.
      * rewrite (fma_kind_beyond G o w root depth level rank a i t F W A Hin HM) in E by auto. discriminate.
    + intros x S. destruct (HS x S) as (N1 & N2 & _). destruct S as [L _]. rewrite HT. replace (Nat.eqb x (nxt w)) with false by lia.
      replace (Nat.eqb x o || Nat.eqb x a) with false by lia. reflexivity.
    + intros Hs x. rewrite HT. destruct (Nat.eqb x (nxt w)); [destruct Ht as [[_ ->] | [Es _]]; [discriminate | now apply Hs in Es] | ].
      destruct (Nat.eqb x o || Nat.eqb x a); [discriminate | apply Hs].
    + intros T add sub mul zero inp b f0 Hc Hb.
      assert (Hms : b = Neon8 -> t <> Fms). { intros Eb ->. destruct Ht as [[_ Ht] | [Es _]]; [discriminate | now apply (Hb Eb) in Es]. }
      split.
      * intros V HV. destruct (fma_forth G o w root depth level rank a i t F W A Hin HM add sub mul zero inp b f0 Hc Hms V HV) as [H1 H2].
        eexists. split; [exact H1 | ]. split.
        -- intros x j L. cbn beta. replace (Nat.eqb x (nxt w)) with false by lia. reflexivity.
        -- intros x e S. destruct (HS x S) as (N1 & N2 & _). apply H2; auto. apply S.
      * intros V HV. destruct (fma_back G o w root depth level rank a i t F W A Hin HM add sub mul zero inp b f0 Hc Hms V HV) as (V1 & H1 & _ & H2 & H3).
        exists V1. split; [exact H1 | ]. split.
        -- intros x j S. destruct (HS x S) as (N1 & N2 & _). auto.
        -- intros x e S. destruct (HS x S) as (N1 & N2 & _). apply H3; auto. apply S.
  - intros x H Tx K. rewrite HT in Tx. pose proof (lt_inside w F x H K) as [L _]. replace (Nat.eqb x (nxt w)) with false in Tx by lia.
    destruct (Nat.eqb x o || Nat.eqb x a) eqn:E; [discriminate | ]. split; [ | exact Tx]. apply HI. left. split; [exact K | lia].
Qed.
Notation fstep := (fun w p => replace_fma (fst p) (snd p) w).
Lemma replace_all root depth (l : list (nat * nat)) : forall w level rank,
  fresh_from (pt w) (nxt w) -> well_formed (pt w) root depth level rank -> arithmetic w ->
  (forall p, In p l -> snd p < nxt w /\ (ty w (snd p) = Mul -> inside (pt w) (snd p) (fst p))) ->
  fused root depth w (fold_left fstep l w).
Proof.
  induction l as [ | [G o] l IH]; intros w level rank F W A Hl; cbn [fold_left fst snd]; [eapply fused_refl; eassumption | ].
  destruct (replace_fused root depth level rank G o w F W A) as [R K]; [apply (Hl (G, o)); now left | ].
  eapply fused_trans; [exact F | exact R | ]. destruct (fu_wf _ _ _ _ R) as (l' & r' & W'). apply (IH _ l' r'); [apply R | exact W' | apply R | ].
  intros p Hp. destruct (Hl p (or_intror Hp)) as [Lp Ip]. pose proof (fu_nxt _ _ _ _ R) as N. split; [lia | ]. intros T.
  assert (Tw : ty w (snd p) = Mul).
  { destruct (fma_match w o) as [[[a i] t] | ] eqn:HM; [ | unfold replace_fma in T; rewrite HM in T; exact T].
    rewrite (fma_ty G o w a i t HM) in T. replace (Nat.eqb (snd p) (nxt w)) with false in T by lia. destruct (_ || _); [discriminate | exact T]. }
  exact (proj1 (K (snd p) (fst p) T (Ip Tw))).
Qed.
Lemma fuse_list_inside g : forall k G p, In p (objects_to_fuse k g G) -> inside g (snd p) (fst p).
Proof.
  induction k as [ | k IH]; intros G p; cbn [objects_to_fuse]; [intros [] | ].
  destruct (kind_of g G) as [ | | | objs il ol] eqn:E; try (intros []; fail). intros H. apply in_flat_map in H.
  destruct H as (x & Hx & [<- | H]); [cbn [fst snd]; unfold inside; now rewrite E | now apply (IH x)].
Qed.
Lemma fma_ok root depth level rank w : fresh_from (pt w) (nxt w) -> well_formed (pt w) root depth level rank -> arithmetic w ->
  fused root depth w (fma_replacement depth root w).
Proof.
  intros F W A. unfold fma_replacement. apply (replace_all _ _ _ _ level rank); auto. intros p Hp. apply fuse_list_inside in Hp.
  split; [apply (lt_inside w F _ _ Hp) | auto].
Qed.

(** In a well-formed patch the signals are those of every solution. *)
Section Unique.
Context {A : Type} (add : A -> A -> A) (zero : A) (inp : nat -> A) (g : patch) (f : nat -> list A -> nat -> A) (V : nat -> nat -> A).
Context (HS : forall o i, length (signals (at_inlet g o i)) <= 1) (HV : solution add zero inp g f V).
Scheme outlet_ind2 := Induction for outlet_value Sort Prop with inlet_ind2 := Induction for inlet_value Sort Prop.
Lemma fed_sum o i c : fed_by g o i c -> inlet_sum add zero g V o i = V (c_from c) (c_out c).
Proof.
  intros (H1 & H2 & H3 & H4). rewrite inlet_sum_eq. specialize (HS o i). rewrite signals_at in HS.
  assert (Hc : In c (filter (hits o i) (conns g))) by (apply filter_In; split; [exact H1 | apply hits_iff; auto]).
  destruct (filter (hits o i) (conns g)) as [ | x [ | ]]; [destruct Hc | | cbn in HS; lia]. destruct Hc as [-> | []]. reflexivity.
Qed.
Lemma values_solve :
  (forall o j v, outlet_value g f zero inp o j v -> v = V o j) /\ (forall o i v, inlet_value g f zero inp o i v -> v = inlet_sum add zero g V o i).
Proof.
  destruct HV as (S1 & S2 & S3 & S4).
  assert (HB : forall o j v (H : outlet_value g f zero inp o j v), v = V o j).
  { intros o j v H. induction H using outlet_ind2 with (P := fun o j v _ => v = V o j) (P0 := fun o i v _ => v = inlet_sum add zero g V o i).
    - rewrite (S1 o sg ins outs) by assumption. f_equal. apply map_ext_in. intros e1 He. auto.
    - symmetry. now apply S2.
    - rewrite (S3 G objs il ol i o) by assumption. auto.
    - rewrite (S4 G objs il ol j o) by assumption. auto.
    - rewrite (fed_sum o i c) by assumption. auto.
    - rewrite inlet_sum_eq. rewrite filter_none; [reflexivity | ]. intros c Hc. apply not_true_iff_false. intros F. apply hits_iff in F. eapply n. red. eauto. }
  split; [exact HB | ]. intros o i v H. destruct H as [o i c v Hf Ho | o i Hn].
  - rewrite (fed_sum o i c) by assumption. now apply HB.
  - rewrite inlet_sum_eq. rewrite filter_none; [reflexivity | ]. intros c Hc. apply not_true_iff_false. intros F. apply hits_iff in F. apply (Hn c). red. tauto.
Qed.
End Unique.

(** ** cascade_expansion and types *)
Lemma expand_arithmetic G o i w : fresh_from (pt w) (nxt w) -> arithmetic w -> 2 <= length (filter (hits o i) (conns (pt w))) ->
  arithmetic (expand_inlet G o i w).
Proof.
  intros F A L. assert (Hold : forall x, x < nxt w -> ty (expand_inlet G o i w) x = ty w x).
  { intros x Hx. rewrite step_ty by auto. unfold between. replace (Nat.leb (nxt w) x) with false by lia. reflexivity. }
  assert (Hbey : forall x, nxt w <= x -> ty w x = Other).
  { intros x Hx. pose proof (ar_kind _ A x) as K. rewrite (fr_kind _ _ F x Hx) in K. destruct (ty w x); auto; try discriminate. destruct K; discriminate. }
  constructor.
  - intros x. destruct (Nat.lt_ge_cases x (nxt w)) as [H | H].
    + rewrite Hold by auto. pose proof (ar_kind _ A x) as K. rewrite step_kind by auto. destruct (Nat.eqb_spec x G) as [-> | ]; [ | exact K].
      destruct (ty w G); auto; try (rewrite K; reflexivity). destruct K as [d K]. rewrite K. eauto.
    + rewrite step_ty by auto. destruct (between (nxt w) (nxt (expand_inlet G o i w)) x) eqn:E.
      * apply between_iff in E. rewrite step_nxt in E by auto. rewrite step_kind_new by auto. exists None. reflexivity.
      * rewrite Hbey by auto. exact I.
  - intros c Hc HO. destruct (conn_cases G o i w L c Hc) as [[H1 H2] | [(c0 & j & H1 & H2 & H3 & H4 & H5 & H6 & H7) | [(k & Hk & ->) | ->]]]; auto.
    pose proof (fr_conn _ _ F c H1). rewrite !Hold in HO by lia. now apply (ar_conn _ A c).
Qed.
Lemma cascade_arithmetic depth root w : fresh_from (pt w) (nxt w) -> arithmetic w -> arithmetic (cascade_expansion depth root w).
Proof.
  unfold cascade_expansion. generalize (inlets_to_expand depth (pt w) root). intros l. revert w.
  induction l as [ | [[G o] i] l IH]; intros w F A; cbn [fold_left fst snd]; [exact A | ].
  destruct (Nat.le_gt_cases (count (pt w) o i) 1) as [H | H].
  - rewrite expand_le1 by exact H. auto.
  - assert (L : 2 <= length (filter (hits o i) (pt w).(conns))). { unfold count in H. rewrite signals_at in H. exact H. }
    apply IH; [now apply step_fresh | now apply expand_arithmetic].
Qed.
Lemma solution_ext {A} add (zero : A) inp g f f' V :
  (forall o sg ins outs l j, kind_of g o = Leaf sg ins outs None -> f o l j = f' o l j) -> solution add zero inp g f V -> solution add zero inp g f' V.
Proof.
  intros H (S1 & S2 & S3 & S4). split; [ | auto]. intros o sg ins outs E j. rewrite <- (H o sg ins outs) by exact E. now apply (S1 o sg ins outs).
Qed.
Lemma kernels_ext {A} (add sub mul : A -> A -> A) b t t' f0 o l j : t o = t' o -> kernels add sub mul b t f0 o l j = kernels add sub mul b t' f0 o l j.
Proof. intros H. unfold kernels. now rewrite H. Qed.
Lemma cascade_kind root depth level rank w : fresh_from (pt w) (nxt w) -> reduced (pt w) root depth level rank ->
  forall x, x < nxt w -> (forall p q r, kind_of (pt w) x <> Graph p q r) -> kind_of (pt (cascade_expansion depth root w)) x = kind_of (pt w) x.
Proof.
  intros F _. unfold cascade_expansion. generalize (inlets_to_expand depth (pt w) root). intros l. revert w F.
  induction l as [ | [[G o] i] l IH]; intros w F x Hx NG; cbn [fold_left fst snd]; [reflexivity | ].
  destruct (Nat.le_gt_cases (count (pt w) o i) 1) as [H | H].
  - rewrite expand_le1 by exact H. auto.
  - assert (L : 2 <= length (filter (hits o i) (pt w).(conns))). { unfold count in H. rewrite signals_at in H. exact H. }
    assert (E : kind_of (pt (expand_inlet G o i w)) x = kind_of (pt w) x).
    { rewrite step_kind by auto. destruct (Nat.eqb_spec x G) as [-> | ]; [ | reflexivity]. destruct (kind_of (pt w) G) eqn:EG; auto. exfalso. eapply NG. reflexivity. }
    rewrite IH; [exact E | now apply step_fresh | rewrite step_nxt by auto; lia | intros p q r; rewrite E; apply NG].
Qed.
Lemma cascade_dac depth root w : fresh_from (pt w) (nxt w) ->
  forall x sg ins outs ch, kind_of (pt (cascade_expansion depth root w)) x = Leaf sg ins outs (Some ch) -> kind_of (pt w) x = Leaf sg ins outs (Some ch).
Proof.
  intros F. unfold cascade_expansion. generalize (inlets_to_expand depth (pt w) root). intros l. revert w F.
  induction l as [ | [[G o] i] l IH]; intros w F x sg ins outs ch E; cbn [fold_left fst snd] in E; [exact E | ].
  destruct (Nat.le_gt_cases (count (pt w) o i) 1) as [H | H].
  - rewrite expand_le1 in E by exact H. now apply (IH w).
  - assert (L : 2 <= length (filter (hits o i) (pt w).(conns))). { unfold count in H. rewrite signals_at in H. exact H. }
    apply IH in E; [ | now apply step_fresh]. destruct (Nat.lt_ge_cases x (nxt w)) as [Lx | Lx].
    + rewrite step_kind in E by auto. destruct (Nat.eqb_spec x G) as [-> | ]; [ | exact E]. destruct (kind_of (pt w) G); auto. discriminate.
    + destruct (Nat.lt_ge_cases x (nxt w + (length (filter (hits o i) (conns (pt w))) - 1))) as [L2 | L2];
        [rewrite step_kind_new in E by auto | rewrite step_kind_ge in E by auto]; discriminate.
Qed.
Lemma inside_graph g x H : inside g x H -> exists p q r, kind_of g H = Graph p q r.
Proof. unfold inside. destruct (kind_of g H); try contradiction. eauto. Qed.
Lemma within_inside g root x : within g root x -> x = root \/ exists H, inside g x H.
Proof. destruct 1; eauto. Qed.
Lemma fused_within root depth w w' : fused root depth w w' -> forall x, within (pt w) root x ->
  (forall ins outs, kind_of (pt w) x <> Leaf true ins outs None) -> within (pt w') root x.
Proof.
  intros R x H. induction H as [ | x G Hi HG IH]; intros N; [constructor | ].
  destruct (fu_keep _ _ _ _ R x G Hi) as [K | [_ (ins & outs & K)]]; [ | now apply N in K].
  eapply within_in; [exact K | ]. apply IH. intros ins outs E. destruct (inside_graph _ _ _ Hi) as (? & ? & ? & E2). congruence.
Qed.
Lemma cascade_graph depth root w : fresh_from (pt w) (nxt w) ->
  forall x, (exists p q r, kind_of (pt w) x = Graph p q r) -> exists p q r, kind_of (pt (cascade_expansion depth root w)) x = Graph p q r.
Proof.
  intros F. unfold cascade_expansion. generalize (inlets_to_expand depth (pt w) root). intros l. revert w F.
  induction l as [ | [[G o] i] l IH]; intros w F x E; cbn [fold_left fst snd]; [exact E | ].
  destruct (Nat.le_gt_cases (count (pt w) o i) 1) as [H | H].
  - rewrite expand_le1 by exact H. now apply (IH w).
  - assert (L : 2 <= length (filter (hits o i) (pt w).(conns))). { unfold count in H. rewrite signals_at in H. exact H. }
    apply IH; [now apply step_fresh | ]. destruct E as (p & q & r & E). destruct (Nat.lt_ge_cases x (nxt w)) as [Lx | Lx]; [ | rewrite (fr_kind _ _ F x Lx) in E; discriminate].
    rewrite step_kind by auto. destruct (Nat.eqb_spec x G) as [-> | ]; [rewrite E | ]; eauto.
Qed.
