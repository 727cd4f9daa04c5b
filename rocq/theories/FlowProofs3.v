From Coq Require Import ZifyBool.
From Verif Require Import FlowModel FlowSpec FlowSim FlowProofs FlowProofs2.

Definition tg (c : conn) : Z * nat := (c_to c, c_in c).
Lemma targets_expand (E : conn -> list conn) (exp : Z * nat -> list (Z * nat)) l :
  (forall c, In c l -> map tg (filter c_ctl (E c)) = if c_ctl c then exp (tg c) else []) ->
  map tg (filter c_ctl (flat_map E l)) = flat_map exp (map tg (filter c_ctl l)).
Proof.
  induction l as [|c l IH]; intros H; [reflexivity|]. cbn [flat_map filter]. rewrite filter_app, map_app, (H c) by (left; reflexivity).
  rewrite IH by (intros x Hx; apply H; right; exact Hx). destruct (c_ctl c); reflexivity.
Qed.
Lemma filter_all {A} (p : A -> bool) l : (forall x, In x l -> p x = true) -> filter p l = l.
Proof. induction l as [|x l IH]; intros H; [reflexivity|]. cbn [filter]. rewrite (H x) by (left; reflexivity). f_equal. apply IH. intros y Hy. apply H. right. exact Hy. Qed.
Lemma filter_no {A} (p : A -> bool) l : (forall x, In x l -> p x = false) -> filter p l = [].
Proof. induction l as [|x l IH]; intros H; [reflexivity|]. cbn [filter]. rewrite (H x) by (left; reflexivity). apply IH. intros y Hy. apply H. right. exact Hy. Qed.
Lemma Forall2_diag {A} (P : A -> A -> Prop) l : (forall x, In x l -> P x x) -> Forall2 P l l.
Proof. induction l as [|x l IH]; intros H; constructor; [apply H; left; reflexivity|]. apply IH. intros y Hy. apply H. right. exact Hy. Qed.
Lemma Forall2_rev {A B} (P : A -> B -> Prop) l l' : Forall2 P l l' -> Forall2 P (rev l) (rev l').
Proof. induction 1; cbn [rev]; [constructor|]. apply Forall2_app; [assumption|]. constructor; [assumption|constructor]. Qed.

Lemma pass_src kind x i k s j : nested_ok kind -> In (k, (s, j)) (passes (kind x) x i) -> s = x \/ kind s = NInlet \/ exists ils, kind s = NSub ils.
Proof.
  intros (H1 & H2) H. destruct (kind x) eqn:E; cbn [passes] in H; try (destruct H; fail).
  - apply in_rev in H. apply in_map_iff in H as ([a b] & Eq & _). injection Eq as _ <- _. left. reflexivity.
  - destruct H as [Eq|[]]. injection Eq as _ <- _. left. reflexivity.
  - destruct H as [Eq|[]]. injection Eq as _ <- _. right. left. eapply H1. exact E.
  - destruct H as [Eq|[]]. injection Eq as _ <- _. right. right. eapply H2. exact E.
Qed.
Lemma set_kind_same kd x n : set_kind kd x n x = n.
Proof. unfold set_kind. rewrite Z.eqb_refl. reflexivity. Qed.
Lemma set_kind_other kd x n y : y <> x -> set_kind kd x n y = kd y.
Proof. intros H. unfold set_kind. destruct (Z.eqb_spec y x); congruence. Qed.

Lemma emits_true {M S} (p : prog M S) : emits_ok (fun _ => True) p.
Proof. induction p; cbn [emits_ok]; auto. Qed.

Section Chain.
Context {M S : Type} (beh : Z -> nat -> M -> prog M S) (conv : ckind -> M -> option M).
Notation exec := (exec beh conv).
Context (nin nout : Z -> nat).
Notation source_patch := (source_patch nin nout).

Lemma send_single f x m st st' tr : exec f (TSend [x] m) st st' tr <-> exec f (TDeliver x m) st st' tr.
Proof.
  split; intros H; [|apply send_one; exact H]. inversion H; subst. match goal with X : exec _ (TSend [] _) _ _ _ |- _ => inversion X; subst end.
  rewrite app_nil_r. assumption.
Qed.

(** *** Renaming *)
Lemma rename_step kind g o n i j todo : source_patch kind g ((o, ARename n i j) :: todo) ->
  exists g', reduce_object (o, ARename n i j) g = Some g' /\ source_patch (kind_after kind (o, ARename n i j)) g' todo /\
    (forall x k m st st' tr, x <> n -> exec (flow_of kind g) (TDeliver (x, k) m) st st' tr <->
       exec (flow_of (kind_after kind (o, ARename n i j)) g') (TDeliver (if x =? o then n else x, k) m) st st' tr).
Proof.
  intros HP. pose proof (sp_consistent _ _ _ _ _ HP) as HC. pose proof (sp_nested _ _ _ _ _ HP) as HNe.
  destruct (sp_actions _ _ _ _ _ HP _ (or_introl eq_refl)) as ((b & Hb) & -> & -> & Hni & Hno).
  destruct (sp_fresh _ _ _ _ _ HP _ n (or_introl eq_refl)) as (Hkn & Hun); [left; reflexivity|].
  pose proof (sp_noloop _ _ _ _ _ HP _ (or_introl eq_refl)) as Hloop. cbn [fst] in Hloop.
  assert (Hself : forall k c, In c (g_outs g o k) -> c_to c <> o) by (intros k c Hc E; apply Hloop; rewrite <- E at 2; eapply R_conn; exact Hc).
  assert (Hneq : n <> o) by (intros ->; congruence).
  destruct (rename_spec nin nout g o n HC Hself Hneq Hun Hni Hno) as (g' & E & HC' & Go & Gn & Gy).
  pose proof Hun as Hun2. apply (unconnected_spec nin nout g n HC) in Hun2 as (Hn1 & Hn2).
  set (kind' := kind_after kind (o, ARename n (nin o) (nout o))).
  assert (Ko : kind' o = NNone) by (unfold kind', kind_after; apply set_kind_same).
  assert (Kn : kind' n = NBox b) by (unfold kind', kind_after; rewrite set_kind_other by exact Hneq; rewrite set_kind_same; exact Hb).
  assert (Ky : forall y, y <> o -> y <> n -> kind' y = kind y) by (intros y N1 N2; unfold kind', kind_after; rewrite !set_kind_other by assumption; reflexivity).
  assert (Horig : forall y k c', In c' (g_outs g' y k) -> exists y0 k0 c, In c (g_outs g y0 k0) /\ c_ctl c = c_ctl c' /\ (y <> n -> y0 = y /\ k0 = k) /\ (c_to c' = c_to c \/ (c_to c = o /\ c_to c' = n))).
  { intros y k c' Hc. destruct (Z.eq_dec y o) as [->|N1]; [rewrite Go in Hc; destruct Hc|]. destruct (Z.eq_dec y n) as [->|N2].
    - rewrite Gn in Hc. apply in_map_iff in Hc as (c & <- & Hc). exists o, k, c. cbn [moved c_to c_ctl]. repeat split; auto; contradiction.
    - rewrite Gy in Hc by assumption. apply in_map_iff in Hc as (c & <- & Hc). exists y, k, c. split; [exact Hc|]. unfold retarget.
      destruct (Z.eqb_spec (c_to c) o); cbn [to_obj c_to c_ctl]; auto. }
  exists g'. split; [exact E|]. pose proof (sp_ids _ _ _ _ _ HP) as HI. cbn [map fst flat_map snd new_ids app] in HI.
  assert (HI2 : ~ In o (map fst todo) /\ ~ In n (map fst todo) /\ ~ In n (flat_map (fun oa => new_ids (snd oa)) todo) /\ NoDup (map fst todo ++ flat_map (fun oa => new_ids (snd oa)) todo)).
  { inversion HI as [|? ? I1 I2]; subst. assert (~ In o (map fst todo)) by (intros C; apply I1; apply in_or_app; left; exact C).
    pose proof (NoDup_remove _ _ _ I2) as (I3 & I4). split; [assumption|]. split; [intros C; apply I4; apply in_or_app; left; exact C|].
    split; [intros C; apply I4; apply in_or_app; right; exact C|exact I3]. }
  destruct HI2 as (No & Nn & Nn2 & ND).
  assert (Hfst : forall oa, In oa todo -> fst oa <> o /\ fst oa <> n).
  { intros oa Hin. split; intros C; [apply No|apply Nn]; rewrite <- C; apply in_map; exact Hin. }
  split.
  - split.
    + exact HC'.
    + destruct HNe as (N1 & N2). split.
      * intros x ils k Hx. destruct (Z.eq_dec x o) as [->|X1]; [congruence|]. destruct (Z.eq_dec x n) as [->|X2]; [congruence|]. rewrite Ky in Hx by assumption.
        specialize (N1 x ils k Hx). rewrite Ky; [exact N1|intros C; congruence|intros C; congruence].
      * intros x gr idx Hx. destruct (Z.eq_dec x o) as [->|X1]; [congruence|]. destruct (Z.eq_dec x n) as [->|X2]; [congruence|]. rewrite Ky in Hx by assumption.
        destruct (N2 x gr idx Hx) as (ils & Hg). exists ils. rewrite Ky; [exact Hg|intros C; congruence|intros C; congruence].
    + intros oa Hin. destruct (Hfst oa Hin) as (F1 & F2). pose proof (sp_actions _ _ _ _ _ HP oa (or_intror Hin)) as HA. destruct oa as [x [n' i' j'|casts]]; cbn [action_ok fst] in *; rewrite (Ky x F1 F2); exact HA.
    + exact ND.
    + intros oa x Hin Hx. destruct (sp_fresh _ _ _ _ _ HP oa x (or_intror Hin) Hx) as (F1 & F2).
      assert (X1 : x <> o) by (intros ->; congruence).
      assert (X2 : x <> n). { intros ->. apply Nn2. apply in_flat_map. exists oa. auto. }
      split; [rewrite Ky by assumption; exact F1|]. apply (unconnected_spec nin nout g x HC) in F2 as (F2 & F3).
      apply (unconnected_spec nin nout g' x HC'). split; [intros k; rewrite Gy by assumption; rewrite F2; reflexivity|].
      intros y k c' Hc C. destruct (Horig y k c' Hc) as (y0 & k0 & c & Hc0 & _ & _ & [D|(D1 & D2)]); [exact (F3 y0 k0 c Hc0 (eq_trans (eq_sym D) C))|congruence].
    + intros x casts k c Hin Hc. destruct (Hfst _ Hin) as (F1 & F2). cbn [fst] in *. destruct (Horig x k c Hc) as (y0 & k0 & c0 & Hc0 & E0 & EY & _).
      destruct (EY F2) as (-> & ->). rewrite <- E0. eapply (sp_control _ _ _ _ _ HP); [right; exact Hin|exact Hc0].
    + intros x ks Hx. destruct (Z.eq_dec x o) as [->|X1]; [congruence|]. destruct (Z.eq_dec x n) as [->|X2]; [congruence|]. rewrite Ky in Hx by assumption.
      destruct (sp_complete _ _ _ _ _ HP x ks Hx) as [C|C]; [cbn [fst] in C; congruence|exact C].
    + intros oa Hin Hr. destruct (Hfst oa Hin) as (F1 & F2). apply (sp_noloop _ _ _ _ _ HP oa (or_intror Hin)).
      assert (Hgen : forall y, reaches kind' g' (fst oa) y -> y <> n -> reaches kind g (fst oa) y).
      { intros y Hy. induction Hy as [k c Hc|t ks k c Hy IH Ht Hk Hc]; intros Hyn.
        - rewrite Gy in Hc by assumption. apply in_map_iff in Hc as (c0 & <- & Hc). unfold retarget in *. destruct (Z.eqb_spec (c_to c0) o); [cbn [to_obj c_to] in Hyn; congruence|]. eapply R_conn. exact Hc.
        - destruct (Z.eq_dec t o) as [->|T1]; [congruence|]. destruct (Z.eq_dec t n) as [->|T2]; [congruence|]. rewrite Ky in Ht by assumption.
          rewrite Gy in Hc by assumption. apply in_map_iff in Hc as (c0 & <- & Hc). unfold retarget in *. destruct (Z.eqb_spec (c_to c0) o); [cbn [to_obj c_to] in Hyn; congruence|].
          eapply R_trigger; [apply IH; exact T2|exact Ht|exact Hk|exact Hc]. }
      apply Hgen; [exact Hr|exact F2].
  - set (ren := fun x => if x =? o then n else x). set (exp := fun t : Z * nat => if fst t =? n then [] else [(ren (fst t), snd t)]).
    assert (Hren : ren o = n) by (unfold ren; rewrite Z.eqb_refl; reflexivity).
    assert (Hreny : forall y, y <> o -> ren y = y) by (intros y N; unfold ren; destruct (Z.eqb_spec y o); congruence).
    assert (HTy : forall y k, y <> o -> y <> n -> control_targets g' y k = flat_map exp (control_targets g y k)).
    { intros y k N1 N2. unfold control_targets. rewrite Gy by assumption. change (fun c : conn => (c_to c, c_in c)) with tg.
      transitivity (map tg (filter c_ctl (flat_map (fun c => [retarget o n c]) (g_outs g y k)))).
      - reflexivity.
      - apply targets_expand. intros c Hc. assert (Hcn : c_to c <> n) by (eapply Hn2; exact Hc). unfold retarget, exp, ren, tg. cbn [fst snd].
        destruct (Z.eqb_spec (c_to c) n); [contradiction|]. destruct (Z.eqb_spec (c_to c) o); cbn [filter to_obj c_ctl]; destruct (c_ctl c); reflexivity. }
    assert (HTo : forall k, control_targets g' n k = flat_map exp (control_targets g o k)).
    { intros k. unfold control_targets. rewrite Gn. change (fun c : conn => (c_to c, c_in c)) with tg.
      transitivity (map tg (filter c_ctl (flat_map (fun c => [moved n k c]) (g_outs g o k)))).
      - reflexivity.
      - apply targets_expand. intros c Hc. assert (Hcn : c_to c <> n) by (eapply Hn2; exact Hc). assert (Hco : c_to c <> o) by (eapply Hself; exact Hc).
        unfold exp, ren, tg. cbn [fst snd]. destruct (Z.eqb_spec (c_to c) n); [contradiction|]. destruct (Z.eqb_spec (c_to c) o); [contradiction|].
        cbn [filter moved c_ctl]. destruct (c_ctl c); reflexivity. }
    assert (HS : sim beh (flow_of kind g) (flow_of kind' g') (fun x => x =? n) exp ren (fun _ => O) (fun _ _ => True)).
    { split; cbn [f_kind f_outs flow_of].
      - intros x k Hx. unfold exp. cbn [fst snd]. rewrite Hx. reflexivity.
      - intros x bx Hx Hk. assert (x <> n) by lia. destruct (Z.eq_dec x o) as [->|N1].
        + rewrite Hren, Kn. split; [congruence|]. split; [intros; apply emits_true|]. intros k _. apply HTo.
        + rewrite (Hreny x N1), (Ky x) by assumption. split; [exact Hk|]. split; [intros; apply emits_true|]. intros k _. apply HTy; assumption.
      - intros x Hx Hk. assert (N2 : x <> n) by lia. assert (N1 : x <> o) by (intros ->; exact (Hk b Hb)). rewrite (Hreny x N1), (Ky x N1 N2). split; [exact Hk|].
        intros k. apply Forall2_diag. intros [kk [s sj]] Hs. split; [reflexivity|]. cbn [fst snd f_outs]. apply HTy.
        + intros ->. apply (pass_src _ _ _ _ _ _ HNe) in Hs as [C|[C|(ils & C)]]; congruence.
        + intros ->. apply (pass_src _ _ _ _ _ _ HNe) in Hs as [C|[C|(ils & C)]]; congruence.
      - intros x Hx. assert (x = n) by lia. subst x. rewrite Hkn. split; [discriminate|]. intros k. exists []. split; [|constructor].
        unfold exp. cbn [fst]. rewrite Z.eqb_refl. reflexivity. }
    intros x k m st st' tr Hx. rewrite <- !send_single. rewrite (sim_send beh conv _ _ _ _ _ _ _ HS [(x, k)] m st st' tr).
    cbn [flat_map]. rewrite app_nil_r. unfold exp. cbn [fst snd]. destruct (Z.eqb_spec x n); [contradiction|]. reflexivity.
Qed.

(** *** Triggers *)
Lemma kind_after_seq kind o ks casts : kind o = NTrigger ks -> Forall2 (fun k c => match k with KAny => c = None | _ => exists x, c = Some x /\ nin x = 1%nat /\ nout x = 1%nat end) ks casts ->
  NoDup (new_ids (ASeq casts)) -> ~ In o (new_ids (ASeq casts)) ->
  kind_after kind (o, ASeq casts) o = NNone /\
  (forall y, y <> o -> ~ In y (new_ids (ASeq casts)) -> kind_after kind (o, ASeq casts) y = kind y) /\
  (forall i x, nth_error casts i = Some (Some x) -> exists k, nth_error ks i = Some k /\ kind_after kind (o, ASeq casts) x = NCast k).
Proof.
  intros Ho HF HN Hno. unfold kind_after. rewrite Ho.
  set (F := fun (kc : ckind * option Z) (kd : Z -> node) => match snd kc with Some x => set_kind kd x (NCast (fst kc)) | None => kd end).
  assert (HA : forall y, ~ In y (new_ids (ASeq casts)) -> fold_right F kind (combine ks casts) y = kind y).
  { clear HN Hno Ho. induction HF as [|k c ks casts Hkc HF IH]; intros y Hy; [reflexivity|]. cbn [combine fold_right]. unfold F at 1. cbn [snd fst]. cbn [new_ids flat_map] in *.
    destruct c as [x|]; [|apply IH; exact Hy]. rewrite set_kind_other; [apply IH; intros C; apply Hy; right; exact C|]. intros ->. apply Hy. left. reflexivity. }
  split; [apply set_kind_same|]. split; [intros y N1 N2; rewrite set_kind_other by exact N1; apply HA; exact N2|].
  intros i x Hx. assert (Hxo : x <> o) by (intros ->; apply Hno; apply new_id_nth; eauto). 
  assert (HB : exists k, nth_error ks i = Some k /\ fold_right F kind (combine ks casts) x = NCast k).
  { clear HA Hno Ho. revert i Hx. induction HF as [|k c ks casts Hkc HF IH]; intros i Hx; [destruct i; discriminate|].
    cbn [new_ids flat_map] in HN. cbn [combine fold_right]. unfold F at 1. cbn [snd fst]. destruct i as [|i].
    - injection Hx as ->. exists k. split; [reflexivity|]. apply set_kind_same.
    - cbn [nth_error] in Hx |- *. destruct c as [y|].
      + inversion HN; subst. destruct (IH H2 i Hx) as (k' & E1 & E2). exists k'. split; [exact E1|]. rewrite set_kind_other; [exact E2|]. intros ->. apply H1. apply new_id_nth. eauto.
      + apply IH; [exact HN|exact Hx]. }
  destruct HB as (k & E1 & E2). exists k. split; [exact E1|]. rewrite set_kind_other by exact Hxo. exact E2.
Qed.

Lemma seq_step kind g o casts todo : source_patch kind g ((o, ASeq casts) :: todo) ->
  exists g', reduce_object (o, ASeq casts) g = Some g' /\ source_patch (kind_after kind (o, ASeq casts)) g' todo /\
    (forall x k m st st' tr, x <> o -> ~ In x (new_ids (ASeq casts)) -> exec (flow_of kind g) (TDeliver (x, k) m) st st' tr <->
       exec (flow_of (kind_after kind (o, ASeq casts)) g') (TDeliver (x, k) m) st st' tr).
Proof.
  intros HP. pose proof (sp_consistent _ _ _ _ _ HP) as HC. pose proof (sp_nested _ _ _ _ _ HP) as HNe.
  destruct (sp_actions _ _ _ _ _ HP _ (or_introl eq_refl)) as (ks & Hb & Hni & Hno & HF).
  pose proof (fun x Hx => sp_fresh _ _ _ _ _ HP _ x (or_introl eq_refl) Hx) as Hfr. cbn [snd] in Hfr.
  pose proof (sp_noloop _ _ _ _ _ HP _ (or_introl eq_refl)) as Hloop. cbn [fst] in Hloop.
  assert (Hlen : length ks = length casts) by (clear -HF; induction HF; cbn [length]; congruence).
  assert (Hself : forall k c, In c (g_outs g o k) -> c_to c <> o) by (intros k c Hc E; apply Hloop; rewrite <- E at 2; eapply R_conn; exact Hc).
  pose proof (sp_ids _ _ _ _ _ HP) as HI. cbn [map fst flat_map snd app] in HI. set (new := new_ids (ASeq casts)) in *.
  assert (HI2 : ~ In o (map fst todo) /\ NoDup new /\ (forall x, In x new -> ~ In x (map fst todo) /\ ~ In x (flat_map (fun oa => new_ids (snd oa)) todo)) /\ NoDup (map fst todo ++ flat_map (fun oa => new_ids (snd oa)) todo)).
  { inversion HI as [|? ? I1 I2]; subst. split; [intros C; apply I1; apply in_or_app; left; exact C|].
    apply NoDup_app_inv in I2 as (J1 & J2 & J3). apply NoDup_app_inv in J2 as (K1 & K2 & K3). split; [exact K1|]. split.
    - intros x Hx. split; [intros C; apply (J3 x C); apply in_or_app; left; exact Hx|intros C; exact (K3 x Hx C)].
    - clear -J1 K2 J3. induction (map fst todo) as [|a l IH]; [exact K2|]. cbn [app]. inversion J1; subst. constructor.
      + intros C. apply in_app_or in C as [C|C]; [contradiction|]. apply (J3 a); [left; reflexivity|apply in_or_app; right; exact C].
      + apply IH; [assumption|]. intros x Hx. apply J3. right. exact Hx. }
  destruct HI2 as (No & NDn & Nnew & ND).
  assert (Hon : ~ In o new) by (intros C; destruct (Hfr o C); congruence).
  assert (Hcast : forall i, match nth_error casts i with Some (Some x) => nin x = 1%nat /\ nout x = 1%nat /\ nth_error ks i <> Some KAny | Some None => nth_error ks i = Some KAny | None => True end).
  { clear -HF. induction HF as [|k c ks casts Hkc HF IH]; intros i; [destruct i; exact I|].
    destruct i as [|i]; cbn [nth_error]; [|apply IH]. destruct k; [rewrite Hkc; reflexivity| | |]; destruct Hkc as (x & -> & A & B); (split; [exact A|split; [exact B|discriminate]]). }
  assert (Hnewp : forall x, In x new -> x <> o /\ unconnected g x /\ nin x = 1%nat /\ nout x = 1%nat).
  { intros x Hx. destruct (Hfr x Hx) as (F1 & F2). split; [intros ->; contradiction|]. split; [exact F2|]. apply new_id_nth in Hx as (i & Hi). specialize (Hcast i). rewrite Hi in Hcast. tauto. }
  destruct (seq_spec nin nout g o casts HC Hself Hni (eq_trans Hno Hlen) NDn Hnewp) as (g' & E & HC' & Go & Gn & Gy). fold new in Gy.
  assert (Hun : forall x, In x new -> (forall i, g_outs g x i = []) /\ untargeted g x).
  { intros x Hx. apply (unconnected_spec nin nout g x HC). apply Hnewp. exact Hx. }
  destruct (kind_after_seq kind o ks casts Hb HF NDn Hon) as (Ko & Ky & Kc).
  set (kind' := kind_after kind (o, ASeq casts)) in *.
  assert (Hnk : forall x, In x new -> exists k, kind' x = NCast k) by (intros x Hx; apply new_id_nth in Hx as (i & Hi); destruct (Kc i x Hi) as (k & _ & K); eauto).
  (** where the new connections come from *)
  assert (Hfan : forall c c', In c' (fan_out g o casts c) -> c_ctl c' = c_ctl c /\ (In (c_to c') new \/ exists i co, nth_error casts i = Some None /\ In co (g_outs g o i) /\ c_to c' = c_to co)).
  { intros c c' Hc. unfold fan_out in Hc. apply in_flat_map in Hc as ([i k] & Hik & Hc). apply in_rev, in_indexed in Hik. cbn [fst snd] in Hc. destruct k as [x|].
    - destruct Hc as [<- |[]]. cbn [c_ctl c_to]. split; [reflexivity|left]. apply new_id_nth. eauto.
    - apply in_map_iff in Hc as (co & <- & Hco). cbn [c_ctl c_to]. split; [reflexivity|right]. eauto. }
  assert (Horig : forall y k c', y <> o -> ~ In y new -> In c' (g_outs g' y k) -> exists c, In c (g_outs g y k) /\ c_ctl c = c_ctl c' /\
     ((c' = c /\ c_to c <> o) \/ (c_to c = o /\ (In (c_to c') new \/ exists i co, nth_error casts i = Some None /\ In co (g_outs g o i) /\ c_to c' = c_to co)))).
  { intros y k c' N1 N2 Hc. rewrite Gy in Hc by assumption. apply in_flat_map in Hc as (c & Hc0 & Hc). exists c. split; [exact Hc0|]. unfold expand in Hc.
    destruct (Z.eqb_spec (c_to c) o) as [Eo|N].
    - destruct (Hfan c c' Hc) as (A & B). split; [congruence|right; auto].
    - destruct Hc as [<- |[]]. split; [reflexivity|left; auto]. }
  assert (Htarget : forall y k c' x, In c' (g_outs g' y k) -> c_to c' = x -> ~ In x new -> exists y0 k0 c, In c (g_outs g y0 k0) /\ c_to c = x).
  { intros y k c' x Hc Ex Hx. destruct (Z.eq_dec y o) as [->|N1]; [rewrite Go in Hc; destruct Hc|]. destruct (in_dec Z.eq_dec y new) as [I|I].
    - destruct k as [|k].
      + apply new_id_nth in I as (i & Hi). rewrite (Gn i y Hi) in Hc. apply in_map_iff in Hc as (c & <- & Hc). exists o, i, c. auto.
      + exfalso. destruct HC' as (_ & V2 & _ & V4). destruct (V2 _ _ _ Hc) as (V21 & V22). destruct (V4 _ _ _ Hc) as (V41 & _). rewrite V21, V22 in V41. destruct (Hnewp y I) as (_ & _ & _ & X). lia.
    - destruct (Horig y k c' N1 I Hc) as (c & Hc0 & _ & [(-> & _)|(_ & [C|(i & co & _ & Hco & Et)])]); [eauto|congruence|]. exists o, i, co. split; [exact Hco|congruence]. }
  exists g'. split; [exact E|].
  assert (Hfst : forall oa, In oa todo -> fst oa <> o /\ ~ In (fst oa) new).
  { intros oa Hin. split; [intros C; apply No; rewrite <- C; apply in_map; exact Hin|]. intros C. destruct (Nnew _ C) as (D & _). apply D. apply in_map. exact Hin. }
  split.
  - split.
    + exact HC'.
    + destruct HNe as (N1 & N2).
      assert (Hk : forall x, (forall k, kind' x <> NCast k) -> kind' x <> NNone -> kind' x = kind x).
      { intros x A B. apply Ky; [intros ->; congruence|]. intros C. destruct (Hnk x C) as (k & K). exact (A k K). }
      assert (Hk2 : forall x, kind x <> NNone -> (forall l, kind x <> NTrigger l) -> kind' x = kind x).
      { intros x A B. apply Ky; [intros ->; exact (B ks Hb)|]. intros C. destruct (Hfr x C). congruence. }
      split.
      * intros x ils k Hx. assert (Hx2 : kind x = NSub ils) by (rewrite <- (Hk x); [exact Hx|intros; congruence|congruence]).
        specialize (N1 x ils k Hx2). rewrite Hk2; [exact N1|congruence|intros; congruence].
      * intros x gr idx Hx. assert (Hx2 : kind x = NOutlet gr idx) by (rewrite <- (Hk x); [exact Hx|intros; congruence|congruence]).
        destruct (N2 x gr idx Hx2) as (ils & Hg). exists ils. rewrite Hk2; [exact Hg|congruence|intros; congruence].
    + intros oa Hin. destruct (Hfst oa Hin) as (F1 & F2). pose proof (sp_actions _ _ _ _ _ HP oa (or_intror Hin)) as HA. destruct oa as [x [n' i' j'|cc]]; cbn [action_ok fst] in *; rewrite (Ky x F1 F2); exact HA.
    + exact ND.
    + intros oa x Hin Hx. destruct (sp_fresh _ _ _ _ _ HP oa x (or_intror Hin) Hx) as (F1 & F2).
      assert (X1 : x <> o) by (intros ->; congruence).
      assert (X2 : ~ In x new). { intros C. destruct (Nnew x C) as (_ & D). apply D. apply in_flat_map. exists oa. auto. }
      split; [rewrite Ky by assumption; exact F1|]. apply (unconnected_spec nin nout g x HC) in F2 as (F2 & F3).
      apply (unconnected_spec nin nout g' x HC'). split; [intros k; rewrite Gy by assumption; rewrite F2; reflexivity|].
      intros y k c' Hc C. destruct (Htarget y k c' x Hc C X2) as (y0 & k0 & c & Hc0 & D). exact (F3 y0 k0 c Hc0 D).
    + intros x cc k c Hin Hc. destruct (Hfst _ Hin) as (F1 & F2). cbn [fst] in *. destruct (Horig x k c F1 F2 Hc) as (c0 & Hc0 & E0 & _).
      rewrite <- E0. eapply (sp_control _ _ _ _ _ HP); [right; exact Hin|exact Hc0].
    + intros x kx Hx. destruct (Z.eq_dec x o) as [->|X1]; [congruence|]. destruct (in_dec Z.eq_dec x new) as [I|X2]; [destruct (Hnk x I); congruence|]. rewrite Ky in Hx by assumption.
      destruct (sp_complete _ _ _ _ _ HP x kx Hx) as [C|C]; [cbn [fst] in C; congruence|exact C].
    + intros oa Hin Hr. destruct (Hfst oa Hin) as (F1 & F2). apply (sp_noloop _ _ _ _ _ HP oa (or_intror Hin)).
      assert (Hpass : forall y, reaches kind g (fst oa) o -> (exists i co, nth_error casts i = Some None /\ In co (g_outs g o i) /\ y = c_to co) -> reaches kind g (fst oa) y).
      { intros y Hro (i & co & Hi & Hco & ->). eapply R_trigger; [exact Hro|exact Hb| |exact Hco]. specialize (Hcast i). rewrite Hi in Hcast. exact Hcast. }
      assert (Hgen : forall y, reaches kind' g' (fst oa) y -> ~ In y new -> reaches kind g (fst oa) y).
      { intros y Hy. induction Hy as [k c Hc|t kt k c Hy IH Ht Hk Hc]; intros Hyn.
        - destruct (Horig _ k c F1 F2 Hc) as (c0 & Hc0 & _ & [(-> & _)|(Eo & [C|D])]); [eapply R_conn; exact Hc0|contradiction|].
          apply Hpass; [rewrite <- Eo; eapply R_conn; exact Hc0|exact D].
        - assert (T1 : t <> o) by (intros ->; congruence). assert (T2 : ~ In t new) by (intros C; destruct (Hnk t C); congruence). rewrite Ky in Ht by assumption.
          destruct (Horig t k c T1 T2 Hc) as (c0 & Hc0 & _ & [(-> & _)|(Eo & [C|D])]); [eapply R_trigger; eauto|contradiction|].
          apply Hpass; [rewrite <- Eo; eapply R_trigger; eauto|exact D]. }
      apply Hgen; [exact Hr|exact F2].
  - set (gone := fun x => (x =? o) || (if in_dec Z.eq_dec x new then true else false)).
    set (pieces := rev (map (fun ik : nat * option Z => match snd ik with Some x => [(x, O)] | None => control_targets g o (fst ik) end) (indexed casts))).
    set (exp := fun t : Z * nat => if fst t =? o then concat pieces else if in_dec Z.eq_dec (fst t) new then [] else [t]).
    assert (Hexpy : forall y k, y <> o -> ~ In y new -> exp (y, k) = [(y, k)]).
    { intros y k N1 N2. unfold exp. cbn [fst]. destruct (Z.eqb_spec y o); [contradiction|]. destruct (in_dec Z.eq_dec y new); [contradiction|reflexivity]. }
    assert (Hctl : forall i, filter c_ctl (g_outs g o i) = g_outs g o i).
    { intros i. apply filter_all. intros c Hc. eapply (sp_control _ _ _ _ _ HP); [left; reflexivity|exact Hc]. }
    assert (Hself_exp : forall i, flat_map exp (control_targets g o i) = control_targets g o i).
    { intros i. unfold control_targets. rewrite Hctl. assert (HH : forall c, In c (g_outs g o i) -> c_to c <> o /\ ~ In (c_to c) new).
      { intros c Hc. split; [eapply Hself; exact Hc|]. intros C. destruct (Hun _ C) as (_ & U). exact (U _ _ _ Hc eq_refl). }
      induction (g_outs g o i) as [|c l IH]; [reflexivity|]. cbn [map flat_map]. destruct (HH c (or_introl eq_refl)) as (A & B). rewrite (Hexpy _ _ A B). cbn [app]. f_equal.
      apply IH. intros x Hx. apply HH. right. exact Hx. }
    assert (HTy : forall y k, y <> o -> ~ In y new -> control_targets g' y k = flat_map exp (control_targets g y k)).
    { intros y k N1 N2. unfold control_targets. rewrite Gy by assumption. change (fun c : conn => (c_to c, c_in c)) with tg. apply targets_expand.
      intros c Hc. assert (Hcn : ~ In (c_to c) new) by (intros C; destruct (Hun _ C) as (_ & U); exact (U _ _ _ Hc eq_refl)).
      unfold expand. destruct (Z.eqb_spec (c_to c) o) as [Eo|N].
      - destruct (c_ctl c) eqn:Ec.
        + rewrite filter_all by (intros x Hx; destruct (Hfan c x Hx); congruence). unfold exp, tg at 2. cbn [fst]. rewrite Eo, Z.eqb_refl.
          unfold fan_out, pieces. rewrite <- map_rev, <- flat_map_concat_map, map_flat_map. apply flat_map_ext_in. intros [i [x|]] _; cbn [fst snd]; [reflexivity|].
          rewrite map_map. unfold tg. cbn [c_to c_in]. unfold control_targets. rewrite Hctl. reflexivity.
        + rewrite filter_no by (intros x Hx; destruct (Hfan c x Hx); congruence). reflexivity.
      - unfold tg at 2. rewrite (Hexpy _ _ N Hcn). cbn [filter]. destruct (c_ctl c); reflexivity. }
    assert (HS : sim beh (flow_of kind g) (flow_of kind' g') gone exp (fun x => x) (fun _ => O) (fun _ _ => True)).
    { assert (Hg : forall x, gone x = false -> x <> o /\ ~ In x new).
      { intros x Hx. unfold gone in Hx. destruct (Z.eqb_spec x o); [discriminate|]. destruct (in_dec Z.eq_dec x new); [discriminate|]. auto. }
      split; cbn [f_kind f_outs flow_of].
      - intros x k Hx. destruct (Hg x Hx). apply Hexpy; assumption.
      - intros x bx Hx Hk. destruct (Hg x Hx) as (N1 & N2). rewrite (Ky x N1 N2). split; [exact Hk|]. split; [intros; apply emits_true|]. intros k _. apply HTy; assumption.
      - intros x Hx Hk. destruct (Hg x Hx) as (N1 & N2). rewrite (Ky x N1 N2). split; [exact Hk|]. intros k. apply Forall2_diag. intros [kk [s sj]] Hs. split; [reflexivity|]. cbn [fst snd f_outs].
        destruct (pass_src kind x k kk s sj HNe Hs) as [D|[D|(ils & D)]]; apply HTy; intros C; try congruence; destruct (Hfr s C); congruence.
      - intros x Hx. unfold gone in Hx. destruct (Z.eq_dec x o) as [Exo|N]; [subst x; clear Hx|].
        + rewrite Hb. split; [discriminate|]. intros k. exists pieces. split; [unfold exp; cbn [fst]; rewrite Z.eqb_refl; reflexivity|].
          cbn [passes]. unfold pieces. apply Forall2_rev.
          assert (Hgen : Forall2 (piece_ok (flow_of kind g) (flow_of kind' g') gone exp (fun _ => O) (o, k))
                    (map (fun ik : nat * ckind => (snd ik, (o, fst ik))) (combine (seq 0 (length ks)) ks))
                    (map (fun ik : nat * option Z => match snd ik with Some x => [(x, O)] | None => control_targets g o (fst ik) end) (combine (seq 0 (length casts)) casts))).
          { rewrite <- Hlen. assert (Hidx : forall i, nth_error ks (i - 0) = nth_error ks i /\ nth_error casts (i - 0) = nth_error casts i) by (intros i; rewrite Nat.sub_0_r; auto).
            assert (HG : forall a ks' casts', Forall2 (fun _ _ => True) ks' casts' -> (forall i, nth_error ks' i = nth_error ks (a + i)) -> (forall i, nth_error casts' i = nth_error casts (a + i)) ->
              Forall2 (piece_ok (flow_of kind g) (flow_of kind' g') gone exp (fun _ => O) (o, k))
                (map (fun ik : nat * ckind => (snd ik, (o, fst ik))) (combine (seq a (length ks')) ks'))
                (map (fun ik : nat * option Z => match snd ik with Some x => [(x, O)] | None => control_targets g o (fst ik) end) (combine (seq a (length ks')) casts'))).
            { intros a ks' casts' HF2. revert a. induction HF2 as [|kk c ks' casts' _ HF2 IH]; intros a H1 H2; [constructor|]. cbn [length seq combine map fst snd]. constructor.
              - pose proof (H1 O) as K1. pose proof (H2 O) as K2. cbn [nth_error] in K1, K2. rewrite Nat.add_0_r in K1, K2. unfold piece_ok. cbn [fst snd f_outs f_kind flow_of].
                specialize (Hcast a). rewrite <- K2 in Hcast. destruct c as [x|].
                + right. exists x. split; [reflexivity|]. symmetry in K2. destruct (Kc a x K2) as (k2 & K3 & K4). assert (k2 = kk) by congruence. subst k2. split; [exact K4|].
                  rewrite Hself_exp. unfold control_targets. rewrite (Gn a x K2). rewrite filter_all.
                  * rewrite Hctl, map_map. reflexivity.
                  * intros c Hc. apply in_map_iff in Hc as (c0 & <- & Hc0). cbn [moved c_ctl]. eapply (sp_control _ _ _ _ _ HP); [left; reflexivity|exact Hc0].
                + left. split; [congruence|]. split; [symmetry; apply Hself_exp|]. intros t Ht Gt. exfalso. unfold control_targets in Ht. rewrite Hctl in Ht.
                  apply in_map_iff in Ht as (c & <- & Hc). unfold gone in Gt. cbn [fst] in Gt. destruct (Z.eqb_spec (c_to c) o) as [Eo|_]; [exact (Hself _ _ Hc Eo)|].
                  destruct (in_dec Z.eq_dec (c_to c) new) as [I|]; [|discriminate]. destruct (Hun _ I) as (_ & U). exact (U _ _ _ Hc eq_refl).
              - apply (IH (Datatypes.S a)); intros i; [specialize (H1 (Datatypes.S i))|specialize (H2 (Datatypes.S i))]; cbn [nth_error] in *; rewrite Nat.add_succ_comm; assumption. }
            apply HG; [|reflexivity|reflexivity]. clear -HF. induction HF; constructor; auto. }
          exact Hgen.
        + replace (x =? o) with false in Hx by lia. cbn [orb] in Hx. destruct (in_dec Z.eq_dec x new) as [I|]; [|discriminate]. destruct (Hfr x I) as (K & _). rewrite K. split; [discriminate|]. intros k. exists []. split; [|constructor].
          unfold exp. cbn [fst]. destruct (Z.eqb_spec x o); [contradiction|]. destruct (in_dec Z.eq_dec x new); [reflexivity|contradiction]. }
    intros x k m st st' tr N1 N2. rewrite <- !send_single. rewrite (sim_send beh conv _ _ _ _ _ _ _ HS [(x, k)] m st st' tr).
    cbn [flat_map]. rewrite app_nil_r, Hexpy by assumption. reflexivity.
Qed.
End Chain.
