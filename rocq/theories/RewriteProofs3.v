(** cascade_expansion keeps patches well-formed. *)
From Verif Require Import GraphModel GraphSpec RewriteModel RewriteSpec RewriteProofs RewriteProofs2.
Require Import ZifyBool.

Section Step.
Context (G o i : nat) (w : work) (root depth : nat) (level rank : nat -> nat).
Let g := w.(pt).
Let n := w.(nxt).
Let len := length (filter (hits o i) g.(conns)).
Context (Hfr : fresh_from g n) (Hlen : 2 <= len) (WF : reduced g root depth level rank) (Hin : inside g o G).
Let w' := expand_inlet G o i w.
Let g' := w'.(pt).
Let new x := between n (n + (len - 1)) x.

Lemma inside_lt x H : inside g x H -> x < n /\ H < n.
Proof.
  unfold inside. destruct (kind_of g H) as [ | | | objs il ol] eqn:E; try tauto. intros Hx. split.
  - apply (fr_lets _ _ Hfr H objs il ol x E). apply in_or_app. now left.
  - destruct (Nat.lt_ge_cases H n) as [ | Hge]; [assumption | ]. rewrite (fr_kind _ _ Hfr H Hge) in E. discriminate.
Qed.
Lemma kind_G : exists objs il ol, kind_of g G = Graph objs il ol /\ kind_of g' G = Graph (objs ++ seq n (len - 1)) il ol.
Proof.
  pose proof (inside_lt _ _ Hin) as [_ HG]. unfold inside in Hin. destruct (kind_of g G) as [ | | | objs il ol] eqn:E; try contradiction.
  exists objs, il, ol. split; [reflexivity | ]. unfold g', w'. rewrite step_kind by auto. rewrite Nat.eqb_refl.
  fold g. rewrite E. reflexivity.
Qed.
Lemma kind_old x : x < n -> x <> G -> kind_of g' x = kind_of g x.
Proof. intros H Hne. unfold g', w'. rewrite step_kind by auto. replace (Nat.eqb x G) with false by lia. reflexivity. Qed.
Lemma graphs_of x objs il ol : kind_of g' x = Graph objs il ol ->
  (x = G /\ exists ob, kind_of g G = Graph ob il ol /\ objs = ob ++ seq n (len - 1)) \/ (x < n /\ x <> G /\ kind_of g x = Graph objs il ol).
Proof.
  intros H. assert (Hx : x < n).
  { destruct (Nat.lt_ge_cases x n) as [ | Hge]; [assumption | ]. exfalso.
    destruct (Nat.lt_ge_cases x (n + (len - 1))); unfold g', w' in H; [rewrite step_kind_new in H by auto | rewrite step_kind_ge in H by auto]; discriminate. }
  destruct (Nat.eq_dec x G) as [-> | Hne].
  - left. split; [reflexivity | ]. destruct kind_G as (ob & il' & ol' & E & E'). rewrite E' in H. inversion H; subst. exists ob. auto.
  - right. rewrite kind_old in H by auto. auto.
Qed.
Lemma inside_iff x H : inside g' x H <-> inside g x H \/ (H = G /\ n <= x < n + (len - 1)).
Proof.
  split.
  - unfold inside at 1. destruct (kind_of g' H) as [ | | | objs il ol] eqn:E; try tauto. intros Hx.
    destruct (graphs_of _ _ _ _ E) as [(-> & ob & E2 & ->) | (L & Hne & E2)].
    + apply in_app_or in Hx. destruct Hx as [Hx | Hx]; [left; unfold inside; now rewrite E2 | right].
      apply in_seq in Hx. split; [reflexivity | lia].
    + left. unfold inside. now rewrite E2.
  - intros [Hx | [-> Hx]].
    + destruct (Nat.eq_dec H G) as [-> | Hne].
      * destruct kind_G as (ob & il' & ol' & E & E'). unfold inside in *. rewrite E in Hx. rewrite E'. apply in_or_app. now left.
      * unfold inside in *. rewrite kind_old by (auto; now apply (inside_lt x H)). exact Hx.
    + destruct kind_G as (ob & il' & ol' & E & E'). unfold inside. rewrite E'. apply in_or_app. right. apply in_seq. lia.
Qed.
Lemma inlets_old x : x < n -> num_inlets g' x = num_inlets g x.
Proof.
  intros H. unfold num_inlets. destruct (Nat.eq_dec x G) as [-> | Hne]; [ | now rewrite kind_old].
  destruct kind_G as (ob & il & ol & -> & ->). reflexivity.
Qed.
Lemma outlets_old x : x < n -> num_outlets g' x = num_outlets g x.
Proof.
  intros H. unfold num_outlets. destruct (Nat.eq_dec x G) as [-> | Hne]; [ | now rewrite kind_old].
  destruct kind_G as (ob & il & ol & -> & ->). reflexivity.
Qed.
Lemma kind_new x : n <= x < n + (len - 1) -> kind_of g' x = adder.
Proof. intros H. unfold g', w'. now apply step_kind_new. Qed.
Lemma processes_old x : processes g x -> processes g' x.
Proof.
  assert (HL : forall x, kind_of g x <> Outlet -> x < n).
  { intros y H. destruct (Nat.lt_ge_cases y n) as [ | Hge]; [assumption | ]. exfalso. apply H. now apply (fr_kind _ _ Hfr). }
  assert (HG : forall y, kind_of g y <> kind_of g G -> y <> G) by (intros y H ->; congruence).
  destruct kind_G as (ob & il & ol & E & E').
  induction 1 as [y ins outs dac Hy | y H Hi Hp IH | objs il' ol' y ch H EH Hy Ey].
  - apply (proc_leaf g' y ins outs dac). rewrite kind_old; [exact Hy | apply HL; congruence | apply HG; congruence].
  - apply (proc_inside g' y H); [ | exact IH]. apply inside_iff. now left.
  - assert (Ey' : kind_of g' y = Inlet (Some ch)) by (rewrite kind_old; [exact Ey | apply HL; congruence | apply HG; congruence]).
    destruct (Nat.eq_dec H G) as [-> | Hne].
    + rewrite E in EH. inversion EH; subst. now apply (proc_adc g' _ il' ol' y ch G E').
    + apply (proc_adc g' objs il' ol' y ch H); auto. rewrite kind_old; auto. apply HL. congruence.
Qed.

Lemma conn_cases c : In c (conns g') ->
  (In c (conns g) /\ hits o i c = false) \/
  (exists c0 j, In c0 (conns g) /\ hits o i c0 = true /\ c_from c = c_from c0 /\ c_out c = c_out c0 /\ c_sig c = true /\ j < len /\ (c_to c, c_in c) = summand n j) \/
  (exists k, k < len - 2 /\ c = signal_conn (n + k) 0 (n + S k) 0) \/
  c = signal_conn (n + (len - 2)) 0 o i.
Proof.
  intros H. unfold g', w' in H. rewrite step_conns in H by auto. apply in_app_or in H. destruct H as [H | H].
  - apply spread_in in H; auto. destruct H as (c0 & H1 & H2 & H3 & H4 & [[H5 ->] | (H5 & j & Hj & H6)]); [left; auto | right; left].
    exists c0, j. assert (Hs : c_sig c = true) by (rewrite H4; apply hits_iff in H5; tauto).
    fold g in Hj. fold len in Hj. assert (j < len) by lia. tauto.
  - right; right. unfold chain in H. apply in_app_or in H. destruct H as [H | [<- | []]]; [left | now right].
    apply in_map_iff in H. destruct H as (k & <- & Hk). apply in_seq in Hk. fold g in Hk. fold len in Hk. exists k. split; [lia | reflexivity].
Qed.
Lemma source_conn : exists c0, In c0 (conns g) /\ hits o i c0 = true.
Proof.
  subst len. destruct (filter (hits o i) (conns g)) as [ | c l] eqn:E; [cbn in Hlen; lia | ].
  exists c. apply filter_In. rewrite E. now left.
Qed.
Lemma o_lt : o < n. Proof. apply (inside_lt o G Hin). Qed.

Definition level' x := if between n (n + (len - 1)) x then level o else level x.
Definition rank' x := if between n (n + (len - 1)) x then rank o * S len - len + (x - n) else rank x * S len.
Lemma level_old x : x < n -> level' x = level x.
Proof. intros H. unfold level', between. replace (Nat.leb n x) with false by lia. reflexivity. Qed.
Lemma level_new x : n <= x < n + (len - 1) -> level' x = level o.
Proof. intros H. unfold level'. apply between_iff in H. now rewrite H. Qed.
Lemma rank_old x : x < n -> rank' x = rank x * S len.
Proof. intros H. unfold rank', between. replace (Nat.leb n x) with false by lia. reflexivity. Qed.
Lemma rank_new k : k < len - 1 -> rank' (n + k) = rank o * S len - len + k.
Proof. intros H. unfold rank', between. replace (Nat.leb n (n + k) && Nat.ltb (n + k) (n + (len - 1))) with true by lia. f_equal. lia. Qed.
Lemma in_G c : In c (conns g) -> hits o i c = true -> inside g c.(c_from) G.
Proof.
  intros H1 H2. destruct (wf_conn _ _ _ _ _ WF c H1) as ((H & A & B) & _). apply hits_iff in H2. destruct H2 as (_ & E & _). rewrite E in B.
  now rewrite <- (wf_parent _ _ _ _ _ WF _ _ _ B Hin).
Qed.
Lemma summand_new j : j < len -> n <= fst (summand n j) < n + (len - 1) /\ snd (summand n j) < 2 /\ exists k, fst (summand n j) = n + k /\ k < len - 1.
Proof.
  intros H. destruct j; cbn [summand fst snd]; (split; [lia | ]; split; [lia | ]); [exists 0 | exists j]; lia.
Qed.
Lemma mul_lt a b m : a < b -> a * S m + S m <= b * S m.
Proof. intros H. change (a * S m + S m) with (a * S m + S m). replace (a * S m + S m) with (S a * S m) by (cbn; lia). apply Nat.mul_le_mono_r. lia. Qed.

Lemma expand_reduced : reduced g' root depth level' rank'.
Proof.
  assert (Hroot : root < n).
  { destruct (wf_root _ _ _ _ _ WF) as ((ob & il & ol & E) & _). destruct (Nat.lt_ge_cases root n) as [ | Hge]; [assumption | ].
    rewrite (fr_kind _ _ Hfr root Hge) in E. discriminate. }
  assert (Hadd : forall x objs il ol, n <= x < n + (len - 1) -> kind_of g' x = Graph objs il ol -> False).
  { intros x ? ? ? Hx E. rewrite kind_new in E by auto. discriminate. }
  constructor.
  - destruct (wf_root _ _ _ _ _ WF) as ((ob & il & ol & E) & L & D). split; [ | split; [now rewrite level_old | exact D]].
    destruct (Nat.eq_dec root G) as [-> | Hne]; [destruct kind_G as (? & ? & ? & _ & E'); eauto | rewrite kind_old; eauto].
  - intros x H H' A B. apply inside_iff in A, B. destruct A as [A | [-> A]], B as [B | [-> B]].
    + apply (wf_parent _ _ _ _ _ WF x); auto.
    + apply inside_lt in A. lia.
    + apply inside_lt in B. lia.
    + reflexivity.
  - intros x H A. apply inside_iff in A. destruct A as [A | [-> A]].
    + pose proof (inside_lt _ _ A). rewrite !level_old by lia. now apply (wf_level _ _ _ _ _ WF).
    + pose proof (inside_lt _ _ Hin). rewrite level_new by lia. rewrite level_old by lia. now apply (wf_level _ _ _ _ _ WF).
  - intros H objs il ol E. destruct (graphs_of _ _ _ _ E) as [(-> & ob & E2 & ->) | (L & Hne & E2)].
    + destruct (wf_inlets _ _ _ _ _ WF G ob il ol E2) as (N1 & N2 & I1 & I2). split; [exact N1 | ]. split; [exact N2 | ].
      assert (Hk : forall x, In x ob -> kind_of g' x = kind_of g x).
      { intros x Hx. assert (Hi : inside g x G) by (unfold inside; now rewrite E2). apply kind_old; [apply (inside_lt x G Hi) | ].
        intros ->. pose proof (wf_level _ _ _ _ _ WF _ _ Hi). lia. }
      split; intros x.
      * rewrite I1. split; [intros [A B]; split; [apply in_or_app; now left | now rewrite Hk] | ].
        intros [A [a B]]. apply in_app_or in A. destruct A as [A | A]; [split; [exact A | rewrite Hk in B by exact A; eauto] | ].
        apply in_seq in A. rewrite kind_new in B by lia. discriminate.
      * rewrite I2. split; [intros [A B]; split; [apply in_or_app; now left | now rewrite Hk] | ].
        intros [A B]. apply in_app_or in A. destruct A as [A | A]; [split; [exact A | now rewrite Hk in B by exact A] | ].
        apply in_seq in A. rewrite kind_new in B by lia. discriminate.
    + destruct (wf_inlets _ _ _ _ _ WF H objs il ol E2) as (N1 & N2 & I1 & I2). split; [exact N1 | ]. split; [exact N2 | ].
      assert (Hk : forall x, In x objs -> (forall a b c, kind_of g' x <> Graph a b c) \/ (forall a b c, kind_of g x <> Graph a b c) -> kind_of g' x = kind_of g x).
      { intros x Hx HH. assert (Hi : inside g x H) by (unfold inside; now rewrite E2). apply kind_old; [apply (inside_lt x H Hi) | ].
        intros ->. destruct kind_G as (? & ? & ? & K1 & K2). destruct HH as [HH | HH]; [eapply HH, K2 | eapply HH, K1]. }
      split; intros x.
      * rewrite I1. split; intros [A [a B]]; split; auto; exists a; (rewrite Hk || rewrite <- Hk); auto; [right | left]; intros; congruence.
      * rewrite I2. split; intros [A B]; split; auto; (rewrite Hk || rewrite <- Hk); auto; [right | left]; intros; congruence.
  - intros c Hc. destruct (conn_cases c Hc) as [[H1 H2] | [(c0 & j & H1 & H2 & H3 & H4 & H5 & H6 & H7) | [(k & Hk & ->) | ->]]].
    + destruct (wf_conn _ _ _ _ _ WF c H1) as ((H & A & B) & C & D). pose proof (fr_conn _ _ Hfr c H1).
      split; [exists H; split; apply inside_iff; now left | ]. rewrite inlets_old, outlets_old by lia. auto.
    + destruct (wf_conn _ _ _ _ _ WF c0 H1) as ((H & A & B) & C & D). pose proof (fr_conn _ _ Hfr c0 H1).
      destruct (summand_new j H6) as (S1 & S2 & _). rewrite <- H7 in S1, S2. cbn [fst snd] in S1, S2. split; [ | split].
      * exists G. split; apply inside_iff; [left; rewrite H3; now apply in_G | right; auto].
      * unfold num_inlets. rewrite kind_new by lia. exact S2.
      * rewrite H3, H4, outlets_old by lia. exact D.
    + cbn [signal_conn c_from c_to c_in c_out]. split; [exists G; split; apply inside_iff; right; split; auto; lia | ].
      unfold num_inlets, num_outlets. rewrite !kind_new by lia. cbn. lia.
    + destruct source_conn as (c0 & H1 & H2). destruct (wf_conn _ _ _ _ _ WF c0 H1) as (_ & C & _).
      apply hits_iff in H2. destruct H2 as (_ & E1 & E2). rewrite E1, E2 in C.
      cbn [signal_conn c_from c_to c_in c_out]. split; [exists G; split; apply inside_iff; [right; split; auto; lia | now left] | ].
      rewrite inlets_old by (apply (inside_lt o G Hin)). split; [exact C | ]. unfold num_outlets. rewrite kind_new by lia. cbn. lia.
  - pose proof o_lt as Ho. assert (Hr : rank o > 0 /\ rank o * S len >= S len).
    { destruct source_conn as (c0 & H1 & H2). pose proof (wf_rank _ _ _ _ _ WF c0 H1) as L.
      apply hits_iff in H2. destruct H2 as (_ & E1 & E2). rewrite E1 in L. apply (mul_lt _ _ len) in L. nia. }
    intros c Hc. destruct (conn_cases c Hc) as [[H1 H2] | [(c0 & j & H1 & H2 & H3 & H4 & H5 & H6 & H7) | [(k & Hk & ->) | ->]]].
    + pose proof (fr_conn _ _ Hfr c H1). rewrite !rank_old by lia. pose proof (wf_rank _ _ _ _ _ WF c H1) as L. apply (mul_lt _ _ len) in L. lia.
    + pose proof (fr_conn _ _ Hfr c0 H1). destruct (summand_new j H6) as (_ & _ & k & E & Hk). rewrite <- H7 in E. cbn [fst] in E.
      rewrite E, rank_new by lia. rewrite H3, rank_old by lia. pose proof (wf_rank _ _ _ _ _ WF c0 H1) as L.
      apply hits_iff in H2. destruct H2 as (_ & E1 & E2). rewrite E1 in L. apply (mul_lt _ _ len) in L. lia.
    + cbn [signal_conn c_from c_to]. rewrite !rank_new by lia. lia.
    + cbn [signal_conn c_from c_to]. rewrite rank_new, rank_old by lia. lia.
  - intros c Hc Hs. destruct (conn_cases c Hc) as [[H1 H2] | [(c0 & j & H1 & H2 & H3 & H4 & H5 & H6 & H7) | [(k & Hk & ->) | ->]]].
    + pose proof (wf_source _ _ _ _ _ WF c H1 Hs) as Q. destruct (Nat.eq_dec (c_from c) G) as [E | Hne].
      * rewrite E in *. destruct kind_G as (ob & il & ol & E1 & E2). rewrite E1 in Q. rewrite E2. now apply processes_old.
      * rewrite kind_old by (auto; now apply (fr_conn _ _ Hfr c)). destruct (kind_of g (c_from c)); auto. now apply processes_old.
    + assert (Hs0 : c_sig c0 = true) by (apply hits_iff in H2; tauto).
      pose proof (wf_source _ _ _ _ _ WF c0 H1 Hs0) as Q. rewrite H3, H4. destruct (Nat.eq_dec (c_from c0) G) as [E | Hne].
      * rewrite E in *. destruct kind_G as (ob & il & ol & E1 & E2). rewrite E1 in Q. rewrite E2. now apply processes_old.
      * rewrite kind_old by (auto; now apply (fr_conn _ _ Hfr c0)). destruct (kind_of g (c_from c0)); auto. now apply processes_old.
    + cbn [signal_conn c_from c_out]. rewrite kind_new by lia. cbn. eauto.
    + cbn [signal_conn c_from c_out]. rewrite kind_new by lia. cbn. eauto.
  - assert (HK : forall c objs il ol x ch, c_to c < n -> kind_of g' (c_to c) = Graph objs il ol -> nth_error il (c_in c) = Some x ->
        In c (conns g) -> c_sig c = true -> kind_of g' x <> Inlet (Some ch)).
    { intros c objs il ol x ch Hlt E En H1 Hs F.
      assert (Hx : exists ob, kind_of g (c_to c) = Graph ob il ol).
      { destruct (graphs_of _ _ _ _ E) as [(-> & ob & E2 & ->) | (_ & _ & E2)]; eauto. }
      destruct Hx as [ob E2]. apply (wf_adc _ _ _ _ _ WF c ob il ol x ch H1 Hs E2 En). rewrite <- F. symmetry.
      apply kind_old.
      - apply (fr_lets _ _ Hfr _ _ _ _ x E2). apply in_or_app. right. apply in_or_app. left. now apply nth_error_In in En.
      - intros ->. destruct kind_G as (? & ? & ? & _ & K). congruence. }
    intros c objs il ol x ch Hc Hs E En. destruct (conn_cases c Hc) as [[H1 H2] | [(c0 & j & H1 & H2 & H3 & H4 & H5 & H6 & H7) | [(k & Hk & ->) | ->]]].
    + eapply HK; eauto. now apply (fr_conn _ _ Hfr c).
    + exfalso. destruct (summand_new j H6) as (S1 & _). rewrite <- H7 in S1. cbn [fst] in S1. eapply Hadd; eauto.
    + exfalso. cbn [signal_conn c_to] in E. eapply Hadd; [ | exact E]. lia.
    + cbn [signal_conn c_to c_in] in E, En. destruct source_conn as (c0 & H1 & H2).
      apply hits_iff in H2. destruct H2 as (Hs0 & E1 & E2). rewrite <- E1 in E. rewrite <- E2 in En.
      eapply HK; eauto. now apply (fr_conn _ _ Hfr c0).
  - intros x sg ins outs ch E. assert (Hx : x < n).
    { destruct (Nat.lt_ge_cases x n) as [ | Hge]; [assumption | ]. exfalso. destruct (Nat.lt_ge_cases x (n + (len - 1))).
      - rewrite kind_new in E by auto. discriminate.
      - unfold g', w' in E. rewrite step_kind_ge in E by auto. discriminate. }
    assert (E2 : kind_of g x = Leaf sg ins outs (Some ch)).
    { rewrite kind_old in E; auto. intros ->. destruct kind_G as (? & ? & ? & _ & K). congruence. }
    destruct (wf_dac _ _ _ _ _ WF _ _ _ _ _ E2) as (A & B & C & D). repeat split; auto.
    unfold at_inlet. apply filter_none. intros c Hc. apply not_true_iff_false. intros F. apply andb_true_iff in F. rewrite !Nat.eqb_eq in F.
    destruct F as [F1 F2]. assert (HN : forall c1, In c1 (conns g) -> c_to c1 = x -> c_in c1 = 1 -> False).
    { intros c1 K1 K2 K3. assert (In c1 (at_inlet g x 1)) as K4 by (unfold at_inlet; apply filter_In; rewrite K2, K3, !Nat.eqb_refl; auto). rewrite D in K4. destruct K4. }
    destruct (conn_cases c Hc) as [[H1 H2] | [(c0 & j & H1 & H2 & H3 & H4 & H5 & H6 & H7) | [(k & Hk & ->) | ->]]].
    + eapply HN; eauto.
    + destruct (summand_new j H6) as (S1 & _). rewrite <- H7 in S1. cbn [fst] in S1. lia.
    + cbn [signal_conn c_to] in F1. lia.
    + cbn [signal_conn c_to c_in] in F1, F2. destruct source_conn as (c0 & H1 & H2). apply hits_iff in H2. destruct H2 as (_ & K1 & K2).
      apply (HN c0); congruence.
Qed.
End Step.

Lemma expand_list_inside g : forall k G p, In p (inlets_to_expand k g G) -> inside g (snd (fst p)) (fst (fst p)).
Proof.
  induction k as [ | k IH]; intros G p; cbn [inlets_to_expand]; [intros [] | ].
  destruct (kind_of g G) as [ | | | objs il ol] eqn:E; try (intros []; fail). intros H. apply in_flat_map in H.
  destruct H as (x & Hx & H). apply in_app_or in H. destruct H as [H | H].
  - apply in_map_iff in H. destruct H as (i & <- & _). cbn [fst snd]. unfold inside. now rewrite E.
  - now apply (IH x).
Qed.
Notation step := (fun w p => expand_inlet (fst (fst p)) (snd (fst p)) (snd p) w).
Lemma expand_all_reduced root depth (l : list (nat * nat * nat)) : forall w level rank,
  fresh_from (pt w) (nxt w) -> reduced (pt w) root depth level rank -> (forall p, In p l -> inside (pt w) (snd (fst p)) (fst (fst p))) ->
  exists level' rank', reduced (pt (fold_left step l w)) root depth level' rank' /\
    forall x H, inside (pt w) x H -> inside (pt (fold_left step l w)) x H.
Proof.
  induction l as [ | [[G o] i] l IH]; intros w level rank Hfr WF Hl; cbn [fold_left fst snd].
  - exists level, rank. auto.
  - assert (Ho : inside (pt w) o G) by (apply (Hl (G, o, i)); now left).
    destruct (Nat.le_gt_cases (count (pt w) o i) 1) as [H | H].
    + rewrite expand_le1 by exact H. apply (IH w level rank); auto. intros p Hp. apply Hl. now right.
    + assert (Hlen : 2 <= length (filter (hits o i) (pt w).(conns))). { unfold count in H. rewrite signals_at in H. exact H. }
      assert (Hmono : forall x K, inside (pt w) x K -> inside (pt (expand_inlet G o i w)) x K) by (intros x K HK; apply inside_iff; auto).
      destruct (IH (expand_inlet G o i w) _ _ (step_fresh G o i w Hfr Hlen) (expand_reduced G o i w root depth level rank Hfr Hlen WF Ho)) as (level' & rank' & R & M).
      * intros p Hp. apply Hmono. apply Hl. now right.
      * exists level', rank'. split; [exact R | ]. intros x K HK. now apply M, Hmono.
Qed.

(** The result of cascade_expansion is ready for ordering and buffer assignment. *)
Lemma cascade_ok {A : Type} (add : A -> A -> A) zero inp root depth level rank w :
  fresh_from (pt w) (nxt w) -> reduced (pt w) root depth level rank ->
  (forall c, In c (conns (pt w)) -> exists G, within (pt w) root G /\ inside (pt w) (c_to c) G) ->
  refines add zero inp w (cascade_expansion depth root w) /\
  exists level' rank', well_formed (pt (cascade_expansion depth root w)) root depth level' rank' /\
    forall x H, inside (pt w) x H -> inside (pt (cascade_expansion depth root w)) x H.
Proof.
  intros Hfr WF Hin. unfold cascade_expansion.
  destruct (expand_all_ok add zero inp (inlets_to_expand depth (pt w) root) w Hfr) as (R & M & C).
  split; [exact R | ]. destruct (expand_all_reduced root depth (inlets_to_expand depth (pt w) root) w level rank Hfr WF) as (level' & rank' & R' & Mi).
  { apply expand_list_inside. }
  exists level', rank'. split; [ | exact Mi]. split; [exact R' | ]. intros x e.
  change (count (pt (fold_left step (inlets_to_expand depth (pt w) root) w)) x e <= 1).
  destruct (Nat.le_gt_cases (count (pt w) x e) 1) as [Hle | Hgt]; [specialize (M x e); lia | ].
  unfold count in Hgt. destruct (signals (at_inlet (pt w) x e)) as [ | c l] eqn:E; [cbn in Hgt; lia | ].
  assert (Hc : In c (signals (at_inlet (pt w) x e))) by (rewrite E; now left). rewrite signals_at in Hc. apply filter_In in Hc.
  destruct Hc as [Hc Hh]. apply hits_iff in Hh. destruct Hh as (_ & E1 & E2). destruct (Hin c Hc) as (G & HG & Hi). subst x e.
  apply (C G). destruct (expand_visits (pt w) level depth (wf_level _ _ _ _ _ WF) depth root) with (o := c_to c) (G' := G) (i := c_in c) as [V | V]; auto.
  - lia.
  - now apply (wf_conn _ _ _ _ _ WF).
  - destruct (wf_root _ _ _ _ _ WF) as (_ & _ & D). lia.
Qed.
