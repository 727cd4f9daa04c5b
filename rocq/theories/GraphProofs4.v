(** The visiting order of a nested patch: every source is visited before its readers. *)
From Coq Require Import Permutation.
From Verif Require Import GraphModel GraphSpec OrderProofs BufferProofs GraphProofs GraphProofs2 GraphProofs3.

Lemma NoDup_flat_map_disj {X Y} (h : X -> list Y) (l : list X) :
  NoDup l -> (forall o, In o l -> NoDup (h o)) ->
  (forall o1 o2 x, In o1 l -> In o2 l -> In x (h o1) -> In x (h o2) -> o1 = o2) ->
  NoDup (flat_map h l).
Proof.
  induction l as [| o l IH]; intros N H D; cbn; [constructor|]. inversion N as [| ? ? No N']; subst.
  apply NoDup_app_intro.
  - apply H. now left.
  - apply IH; [exact N' | intros p Hp; apply H; now right | intros p q x Hp Hq; apply D; now right].
  - intros x H1 H2. apply in_flat_map in H2 as (p & Hp & H2).
    rewrite (D o p x (or_introl eq_refl) (or_intror Hp) H1 H2) in No. contradiction.
Qed.
Lemma concat_opt_map {X Y} (h : X -> option (list Y)) (b : X -> list Y) (l : list X) :
  (forall o, In o l -> h o = Some (b o)) -> concat_opt (map h l) = Some (flat_map b l).
Proof.
  induction l as [| o l IH]; intros H; cbn; [reflexivity|]. rewrite (H o (or_introl eq_refl)), IH; [reflexivity|].
  intros p Hp. apply H. now right.
Qed.
Lemma flat_map_flat_map {X Y Z0} (h : X -> list Y) (k : Y -> list Z0) l : flat_map k (flat_map h l) = flat_map (fun x => flat_map k (h x)) l.
Proof. induction l as [| x l IH]; cbn; [reflexivity|]. now rewrite flat_map_app, IH. Qed.

Section Visits.
Context (g : patch) (root depth : nat) (level rank : nat -> nat).
Hypothesis WF : well_formed g root depth level rank.

Lemma valid_mono es : forall K K', incl K K' -> valid g K es -> valid g K' es.
Proof.
  induction es as [| e es IH]; intros K K' I V; cbn in *; [exact V|]. destruct V as [V1 V2]. split.
  - intros c X1 X2 X3. apply I. now apply V1.
  - apply (IH (keys g e ++ K)); [|exact V2]. apply incl_app; [apply incl_appl, incl_refl | apply incl_appr, I].
Qed.
Lemma valid_app a : forall K b, valid g K a -> (forall K', incl K K' -> incl (flat_map (keys g) a) K' -> valid g K' b) -> valid g K (a ++ b).
Proof.
  induction a as [| e a IH]; intros K b V H; cbn in *.
  - apply H; [apply incl_refl | intros x []].
  - destruct V as [V1 V2]. split; [exact V1|]. apply IH; [exact V2|]. intros K' I1 I2. apply H.
    + intros x Hx. apply I1. apply in_or_app. now right.
    + apply incl_app; [|exact I2]. intros x Hx. apply I1. apply in_or_app. now left.
Qed.

Lemma within_level G x : within g G x -> level G <= level x.
Proof. induction 1 as [| o G' Hi _ IH]; [lia|]. pose proof (proj1 (wf_level _ _ _ _ _ WF _ _ Hi)). lia. Qed.
Lemma within_unique o1 o2 x : within g o1 x -> within g o2 x -> level o1 = level o2 -> o1 = o2.
Proof.
  induction 1 as [| x G1 H1 W1 IH]; intros W2 L.
  - inversion W2 as [E | ? G' Hi W' E]; [reflexivity|]. subst.
    pose proof (proj1 (wf_level _ _ _ _ _ WF _ _ Hi)). pose proof (within_level _ _ W'). lia.
  - inversion W2 as [E | ? G' Hi W' E]; subst.
    + pose proof (proj1 (wf_level _ _ _ _ _ WF _ _ H1)). pose proof (within_level _ _ W1). lia.
    + rewrite (wf_parent _ _ _ _ _ WF x G1 G' H1 Hi) in *. apply IH; auto.
Qed.
Lemma within_trans G o x : inside g o G -> within g o x -> within g G x.
Proof.
  intros Hi. induction 1 as [| x G' Hx _ IH].
  - apply (within_in g G o G Hi). constructor.
  - apply (within_in g G x G' Hx IH).
Qed.
Lemma within_cases G x : within g G x -> x = G \/ exists o, inside g o G /\ within g o x.
Proof.
  induction 1 as [| x G' Hx _ IH]; [now left|]. right. destruct IH as [-> | (o & Ho & W)].
  - exists x. split; [exact Hx | constructor].
  - exists o. split; [exact Ho | now apply (within_in g o x G')].
Qed.

Lemma does_process_iff k : forall o, level o + k = depth -> level o < depth -> does_process k g o = true <-> processes g o.
Proof.
  induction k as [| k IH]; intros o E L; [lia|]. cbn [does_process].
  destruct (kind_of g o) as [sg ins outs dac | a | | objs il ol] eqn:Ek.
  - split.
    + intros ->. now apply (proc_leaf g o ins outs dac).
    + intros P. inversion P as [? ? ? ? E' | o' G Hi _ E' | ? ? ? ? ? ? E']; subst.
      * congruence.
      * unfold inside in Hi. rewrite Ek in Hi. destruct Hi.
      * congruence.
  - split; [discriminate|]. intros P. inversion P as [? ? ? ? E' | o' G Hi _ E' | ? ? ? ? ? ? E']; subst; try congruence.
    unfold inside in Hi. rewrite Ek in Hi. destruct Hi.
  - split; [discriminate|]. intros P. inversion P as [? ? ? ? E' | o' G Hi _ E' | ? ? ? ? ? ? E']; subst; try congruence.
    unfold inside in Hi. rewrite Ek in Hi. destruct Hi.
  - assert (Hin : forall x, In x objs -> does_process k g x = true <-> processes g x).
    { intros x Hx. assert (inside g x o) as Hi by (unfold inside; now rewrite Ek).
      destruct (wf_level _ _ _ _ _ WF x o Hi) as [L1 L2]. apply IH; lia. }
    rewrite orb_true_iff, !existsb_exists. split.
    + intros [(x & Hx & P) | (x & Hx & P)].
      * apply Hin in P; [|exact Hx]. apply (proc_inside g x o); [unfold inside; now rewrite Ek | exact P].
      * destruct (kind_of g x) as [| [ch|] | |] eqn:Ex; try discriminate. now apply (proc_adc g objs il ol x ch o).
    + intros P. inversion P as [? ? ? ? E' | x G Hi Px E' | ob i' o' x ch G E' Hx Ex]; subst.
      * congruence.
      * unfold inside in Hi. rewrite Ek in Hi. left. exists x. split; [exact Hi | now apply Hin].
      * rewrite Ek in E'. injection E' as <- <- <-. right. exists x. rewrite Ex. auto.
Qed.

Definition block (k o : nat) : list event :=
  match g.(kind_of) o with Graph _ _ _ => match events k g o with Some es => es | None => [] end | _ => [Proc o] end.

(** What the visits of one graph satisfy *)
Record visits_ok (G : nat) (il : list nat) (es : list event) : Prop := {
  vo_valid : valid g il es;
  vo_typed : Forall (typed g) (Enter G :: es);
  vo_keys : NoDup (flat_map (keys g) (Enter G :: es));
  vo_cons : NoDup (flat_map (consumers g) (Enter G :: es));
  vo_kin : forall x, In x (flat_map (keys g) (Enter G :: es)) -> within g G x;
  vo_cin : forall x, In x (flat_map (consumers g) (Enter G :: es)) -> within g G x;
  vo_self : In G (flat_map (keys g) es);
  vo_procs : forall o, In o (procs es) <-> within g G o /\ exists ins outs dac, g.(kind_of) o = Leaf true ins outs dac }.

Lemma graph_order G objs il ol : g.(kind_of) G = Graph objs il ol ->
  exists l, full_order g objs = Some l /\ NoDup l /\ (forall o, In o l <-> In o objs) /\ sources_first g l.
Proof.
  intros EG.
  assert (Hi : forall o, In o objs <-> inside g o G) by (intros o; unfold inside; rewrite EG; tauto).
  assert (C : forall o c, In o objs -> In c (in_connections g o) -> In (c_from c) objs).
  { intros o c Ho Hc. apply in_in_connections in Hc as (Hc & E & _). destruct (wf_conn _ _ _ _ _ WF c Hc) as ((G' & X1 & X2) & _).
    rewrite E in X2. apply Hi in Ho. rewrite (wf_parent _ _ _ _ _ WF o G' G X2 Ho) in X1. now apply Hi. }
  destruct (full_order_terminates_lemma g objs C) as (l & E & N & I).
  exists l. split; [exact E|]. split; [exact N|].
  destruct (full_order_sorted_lemma g objs rank l C) as [S A]; [| | exact E |].
  - intros c Hc Ho. destruct (wf_conn _ _ _ _ _ WF c Hc) as ((G' & X1 & X2) & X3 & _). split; [|exact X3].
    apply Hi in Ho. rewrite (wf_parent _ _ _ _ _ WF _ G' G X1 Ho) in X2. now apply Hi.
  - intros o c Ho Hc. apply in_in_connections in Hc as (Hc & <- & _). now apply (wf_rank _ _ _ _ _ WF).
  - split; [|exact S]. intros o. split; auto.
Qed.

Lemma procs_app a b : procs (a ++ b) = procs a ++ procs b.
Proof. unfold procs. apply flat_map_app. Qed.

Lemma events_ok k : forall G objs il ol, g.(kind_of) G = Graph objs il ol -> level G + k = depth -> level G < depth ->
  exists es, events k g G = Some (Enter G :: es) /\ visits_ok G il es.
Proof.
  induction k as [| k IH]; intros G objs il ol EG EL L; [lia|]. cbn [events]. rewrite EG.
  destruct (graph_order G objs il ol EG) as (full & Ef & Nf & Hf & Sf).
  unfold signal_order. rewrite Ef.
  assert (Hi : forall o, In o objs <-> inside g o G) by (intros o; unfold inside; rewrite EG; tauto).
  assert (Lv : forall o, In o full -> level o = S (level G) /\ level o < depth).
  { intros o Ho. apply (wf_level _ _ _ _ _ WF o G). now apply Hi, Hf. }
  assert (Dp : forall o, In o full -> does_process k g o = true <-> processes g o).
  { intros o Ho. destruct (Lv o Ho). apply does_process_iff; lia. }
  set (l := filter (does_process k g) full).
  assert (Hl : forall o, In o l <-> In o objs /\ processes g o).
  { intros o. unfold l. rewrite filter_In. split.
    - intros [X1 X2]. split; [now apply Hf | now apply Dp].
    - intros [X1 X2]. apply Hf in X1. split; [exact X1 | now apply Dp]. }
  destruct (wf_inlets _ _ _ _ _ WF G objs il ol EG) as (Nil & Nol & Hil & Hol).
  (* the block of each object *)
  assert (Hb : forall o, In o l ->
    (match g.(kind_of) o with Graph _ _ _ => events k g o | _ => Some [Proc o] end) = Some (block k o) /\
    ((exists ins outs dac, g.(kind_of) o = Leaf true ins outs dac /\ block k o = [Proc o]) \/
     (exists ob i' o' es, g.(kind_of) o = Graph ob i' o' /\ block k o = Enter o :: es /\ visits_ok o i' es))).
  { intros o Ho. apply Hl in Ho as [Ho P]. pose proof Ho as Hfo. apply Hf in Hfo. destruct (Lv o Hfo) as [L1 L2].
    unfold block. destruct (kind_of g o) as [sg ins outs dac | a | | ob i' o'] eqn:Ek.
    - split; [reflexivity|]. left. apply Dp in P; [|exact Hfo]. assert (sg = true) as ->.
      { destruct k; cbn in P; rewrite Ek in P; exact P. }
      eauto.
    - exfalso. apply Dp in P; [|exact Hfo]. destruct k; cbn in P; rewrite Ek in P; discriminate.
    - exfalso. apply Dp in P; [|exact Hfo]. destruct k; cbn in P; rewrite Ek in P; discriminate.
    - destruct (IH o ob i' o' Ek) as (es & E1 & V1); [lia | exact L2 |]. rewrite E1. split; [reflexivity|]. right. exists ob, i', o', es. auto. }
  rewrite (concat_opt_map _ (block k)) by (intros o Ho; exact (proj1 (Hb o Ho))).
  set (r := flat_map (block k) l).
  exists (r ++ [Exit G]). split; [reflexivity|].
  assert (Bk : forall o x, In o l -> In x (flat_map (keys g) (block k o)) -> within g o x).
  { intros o x Ho Hx. destruct (Hb o Ho) as [_ [(ins & outs & dac & E1 & E2) | (ob & i' & o' & es & E1 & E2 & V)]]; rewrite E2 in Hx.
    - cbn in Hx. destruct Hx as [<- | []]. constructor.
    - now apply (vo_kin _ _ _ V). }
  assert (Bc : forall o x, In o l -> In x (flat_map (consumers g) (block k o)) -> within g o x).
  { intros o x Ho Hx. destruct (Hb o Ho) as [_ [(ins & outs & dac & E1 & E2) | (ob & i' & o' & es & E1 & E2 & V)]]; rewrite E2 in Hx.
    - cbn in Hx. destruct Hx as [<- | []]. constructor.
    - now apply (vo_cin _ _ _ V). }
  assert (Bs : forall o, In o l -> In o (flat_map (keys g) (block k o))).
  { intros o Ho. destruct (Hb o Ho) as [_ [(ins & outs & dac & E1 & E2) | (ob & i' & o' & es & E1 & E2 & V)]]; rewrite E2.
    - cbn. now left.
    - cbn [flat_map]. apply in_or_app. right. apply (vo_self _ _ _ V). }
  assert (Lo : forall o, In o l -> level o = S (level G) /\ inside g o G).
  { intros o Ho. apply Hl in Ho as [Ho _]. split; [apply Lv, Hf, Ho | now apply Hi]. }
  assert (Same : forall o x, In o l -> within g o x -> In x objs -> x = o).
  { intros o x Ho W Hx. symmetry. apply (within_unique o x x W); [constructor|].
    destruct (Lo o Ho) as [-> _]. symmetry. apply Lv, Hf, Hx. }
  assert (NotG : forall o, In o l -> ~ within g o G).
  { intros o Ho W. apply within_level in W. destruct (Lo o Ho). lia. }
  assert (Nl : NoDup l) by (apply NoDup_filter; exact Nf).
  assert (Vr : forall b a K, full = a ++ b -> incl il K -> incl (filter (does_process k g) a) K -> valid g K (flat_map (block k) (filter (does_process k g) b))).
  { induction b as [| o b IHb]; intros a K Eab I1 I2; cbn [filter]; [exact Logic.I|].
    assert (Hsrc : forall c, In c (conns g) -> c_sig c = true -> c_to c = o -> In (c_from c) K).
    { intros c X1 X2 X3. destruct (wf_conn _ _ _ _ _ WF c X1) as ((G' & Y1 & Y2) & Y3 & _).
      assert (Hof : In o full) by (rewrite Eab; apply in_or_app; right; now left).
      assert (HG : inside g o G) by now apply Hi, Hf.
      rewrite X3 in Y2. rewrite (wf_parent _ _ _ _ _ WF o G' G Y2 HG) in *. rewrite X3 in Y3.
      assert (Ha : In (c_from c) a) by (apply (Sf a o b Eab c); apply in_in_connections; auto).
      pose proof (wf_source _ _ _ _ _ WF c X1 X2) as S.
      destruct (kind_of g (c_from c)) as [sg ins outs dac | ad | | ob i' o'] eqn:Ek.
      - destruct S as (-> & _). apply I2. apply filter_In. split; [exact Ha|]. apply Dp; [rewrite Eab; apply in_or_app; now left|].
        now apply (proc_leaf g _ ins outs dac).
      - apply I1. apply Hil. split; [now apply Hi | eauto].
      - destruct S.
      - apply I2. apply filter_In. split; [exact Ha|]. apply Dp; [rewrite Eab; apply in_or_app; now left | exact S]. }
    assert (Eab' : full = (a ++ [o]) ++ b) by (rewrite <- app_assoc; exact Eab).
    destruct (does_process k g o) eqn:Ed.
    - cbn [flat_map].
      assert (Ho : In o l) by (unfold l; apply filter_In; split; [rewrite Eab; apply in_or_app; right; now left | exact Ed]).
      apply valid_app.
      + destruct (Hb o Ho) as [_ [(ins & outs & dac & E1 & E2) | (ob & i' & o' & es & E1 & E2 & V)]]; rewrite E2; cbn [valid keys consumers].
        * split; [|exact Logic.I]. intros c X1 X2 [X3 | []]. apply Hsrc; auto.
        * split; [intros c X1 X2 [X3 | []]; apply Hsrc; auto|]. apply (valid_mono es i'); [|apply (vo_valid _ _ _ V)].
          unfold inlets_of. rewrite E1. apply incl_appl, incl_refl.
      + intros K' J1 J2. apply (IHb (a ++ [o]) K' Eab').
        * intros x Hx. now apply J1, I1.
        * rewrite filter_app. cbn [filter]. rewrite Ed. apply incl_app; [intros x Hx; now apply J1, I2|].
          intros x [<- | []]. apply J2. now apply Bs.
    - apply (IHb (a ++ [o]) K Eab' I1). rewrite filter_app. cbn [filter]. rewrite Ed, app_nil_r. exact I2. }
  assert (Pr : forall o, In o (procs r) <-> exists p, In p l /\ In o (procs (block k p))).
  { intros o. unfold r, procs. rewrite flat_map_flat_map, in_flat_map. reflexivity. }
  assert (Hse : inlets_of g G = il /\ outlets_of g G = ol) by (unfold inlets_of, outlets_of; rewrite EG; auto).
  destruct Hse as [Hse1 Hse2].
  constructor.
  - apply valid_app.
    + apply (Vr full [] il eq_refl (incl_refl _)). intros x [].
    + intros K' J1 J2. cbn [valid]. split; [|exact Logic.I]. cbn [consumers]. rewrite Hse2.
      intros c X1 X2 X3. apply Hol in X3 as [X3 _]. apply Hi in X3.
      destruct (wf_conn _ _ _ _ _ WF c X1) as ((G' & Y1 & Y2) & _).
      rewrite (wf_parent _ _ _ _ _ WF _ G' G Y2 X3) in Y1. apply Hi in Y1.
      assert (Hk : In (c_from c) il \/ In (c_from c) l).
      { pose proof (wf_source _ _ _ _ _ WF c X1 X2) as S.
        destruct (kind_of g (c_from c)) as [sg ins outs dac | ad | | ob i' o'] eqn:Ek.
        - destruct S as (-> & _). right. apply Hl. split; [exact Y1 | now apply (proc_leaf g _ ins outs dac)].
        - left. apply Hil. split; [exact Y1 | eauto].
        - destruct S.
        - right. apply Hl. auto. }
      destruct Hk as [Hk | Hk]; [now apply J1|]. apply J2. unfold r. rewrite flat_map_flat_map. apply in_flat_map.
      exists (c_from c). split; [exact Hk | now apply Bs].
  - constructor; [cbn; eauto|]. apply Forall_app. split; [|constructor; [cbn; eauto | constructor]].
    apply Forall_flat_map. apply Forall_forall. intros o Ho.
    destruct (Hb o Ho) as [_ [(ins & outs & dac & E1 & E2) | (ob & i' & o' & es & E1 & E2 & V)]]; rewrite E2.
    + constructor; [cbn; eauto | constructor].
    + apply (vo_typed _ _ _ V).
  - cbn [flat_map keys]. rewrite Hse1, flat_map_app. cbn [flat_map keys app]. apply NoDup_app_intro; [exact Nil | |].
    + apply NoDup_app_intro; [|constructor; [intros [] | constructor] |].
      * unfold r. rewrite flat_map_flat_map. apply NoDup_flat_map_disj; [exact Nl | |].
        -- intros o Ho. destruct (Hb o Ho) as [_ [(ins & outs & dac & E1 & E2) | (ob & i' & o' & es & E1 & E2 & V)]]; rewrite E2.
           ++ cbn. constructor; [intros [] | constructor].
           ++ apply (vo_keys _ _ _ V).
        -- intros o1 o2 x P1 P2 Q1 Q2. apply (within_unique o1 o2 x); [now apply Bk | now apply Bk|].
           destruct (Lo o1 P1), (Lo o2 P2). congruence.
      * intros x Hx [<- | []]. unfold r in Hx. rewrite flat_map_flat_map in Hx. apply in_flat_map in Hx as (o & Ho & Hx).
        apply (NotG o Ho). now apply Bk.
    + intros x Hx Hy. apply in_app_or in Hy as [Hy | [<- | []]].
      * unfold r in Hy. rewrite flat_map_flat_map in Hy. apply in_flat_map in Hy as (o & Ho & Hy).
        pose proof Hx as Hx'. apply Hil in Hx' as [Hx1 (a & Ea)].
        assert (x = o) as -> by (apply (Same o x Ho); [now apply Bk | exact Hx1]).
        destruct (Hb o Ho) as [_ [(ins & outs & dac & E1 & E2) | (ob & i' & o' & es & E1 & E2 & V)]]; congruence.
      * apply Hil in Hx as [Hx _]. destruct (Lv G) as [X _]; [now apply Hf | lia].
  - cbn [flat_map consumers]. rewrite flat_map_app. cbn [flat_map consumers app]. rewrite Hse2, app_nil_r. constructor.
    + intros Hy. apply in_app_or in Hy as [Hy | Hy].
      * unfold r in Hy. rewrite flat_map_flat_map in Hy. apply in_flat_map in Hy as (o & Ho & Hy).
        apply (NotG o Ho). now apply Bc.
      * apply Hol in Hy as [Hx _]. destruct (Lv G) as [X _]; [now apply Hf | lia].
    + apply NoDup_app_intro; [| exact Nol |].
      * unfold r. rewrite flat_map_flat_map. apply NoDup_flat_map_disj; [exact Nl | |].
        -- intros o Ho. destruct (Hb o Ho) as [_ [(ins & outs & dac & E1 & E2) | (ob & i' & o' & es & E1 & E2 & V)]]; rewrite E2.
           ++ cbn. constructor; [intros [] | constructor].
           ++ apply (vo_cons _ _ _ V).
        -- intros o1 o2 x P1 P2 Q1 Q2. apply (within_unique o1 o2 x); [now apply Bc | now apply Bc|].
           destruct (Lo o1 P1), (Lo o2 P2). congruence.
      * intros x Hx Hy. unfold r in Hx. rewrite flat_map_flat_map in Hx. apply in_flat_map in Hx as (o & Ho & Hx).
        apply Hol in Hy as [Hy1 Hy2].
        assert (x = o) as -> by (apply (Same o x Ho); [now apply Bc | exact Hy1]).
        destruct (Hb o Ho) as [_ [(ins & outs & dac & E1 & E2) | (ob & i' & o' & es & E1 & E2 & V)]]; congruence.
  - intros x Hx. cbn [flat_map keys] in Hx. rewrite Hse1, flat_map_app in Hx. cbn [flat_map keys app] in Hx.
    apply in_app_or in Hx as [Hx | Hx]; [|apply in_app_or in Hx as [Hx | [<- | []]]].
    + apply Hil in Hx as [Hx _]. apply (within_in g G x G); [now apply Hi | constructor].
    + unfold r in Hx. rewrite flat_map_flat_map in Hx. apply in_flat_map in Hx as (o & Ho & Hx).
      apply (within_trans G o x); [apply Lo; exact Ho | now apply Bk].
    + constructor.
  - intros x Hx. cbn [flat_map consumers] in Hx. rewrite flat_map_app in Hx. cbn [flat_map consumers app] in Hx. rewrite Hse2, app_nil_r in Hx.
    destruct Hx as [<- | Hx]; [constructor|]. apply in_app_or in Hx as [Hx | Hx].
    + unfold r in Hx. rewrite flat_map_flat_map in Hx. apply in_flat_map in Hx as (o & Ho & Hx).
      apply (within_trans G o x); [apply Lo; exact Ho | now apply Bc].
    + apply Hol in Hx as [Hx _]. apply (within_in g G x G); [now apply Hi | constructor].
  - rewrite flat_map_app. apply in_or_app. right. cbn. now left.
  - intros o. rewrite procs_app. cbn [procs flat_map]. rewrite app_nil_r, Pr. split.
    + intros (p & Hp & Ho). destruct (Hb p Hp) as [_ [(ins & outs & dac & E1 & E2) | (ob & i' & o' & es & E1 & E2 & V)]]; rewrite E2 in Ho.
      * cbn in Ho. destruct Ho as [<- | []]. split; [|eauto]. apply (within_in g G p G); [apply Lo; exact Hp | constructor].
      * cbn in Ho. apply (vo_procs _ _ _ V) in Ho as [W X]. split; [|exact X]. apply (within_trans G p o); [apply Lo; exact Hp | exact W].
    + intros [W (ins & outs & dac & Ek)]. apply within_cases in W as [-> | (p & Hp & W)]; [congruence|].
      assert (Pp : processes g p).
      { clear - W Ek. assert (processes g o) as Po by now apply (proc_leaf g o ins outs dac). clear Ek.
        induction W as [| o G' Hi W IH]; [exact Po|]. apply IH. now apply (proc_inside g o G'). }
      assert (Hpl : In p l) by (apply Hl; split; [now apply Hi | exact Pp]).
      exists p. split; [exact Hpl|].
      destruct (Hb p Hpl) as [_ [(ins' & outs' & dac' & E1 & E2) | (ob & i' & o' & es & E1 & E2 & V)]]; rewrite E2.
      * cbn. left. inversion W as [E | ? G' Hx W' E]; [reflexivity|]. subst.
        apply within_cases in W as [E | (q & Hq & _)]; [congruence|]. unfold inside in Hq. rewrite E1 in Hq. destruct Hq.
      * cbn. apply (vo_procs _ _ _ V). split; [exact W | eauto].
Qed.
End Visits.
