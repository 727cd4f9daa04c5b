(** Replacing an object: what stays the same. *)
From Verif Require Import RewriteModel OpModel OpSpec OpProofs.
From Coq Require Import Permutation.

Lemma filter_map' {X Y} (f : X -> Y) (p : Y -> bool) l : filter p (map f l) = map f (filter (fun x => p (f x)) l).
Proof. induction l as [ | x l IH]; [reflexivity | ]. cbn. destruct (p (f x)); cbn; now rewrite IH. Qed.
Lemma filter_none {X} (p : X -> bool) l : (forall x, In x l -> p x = false) -> filter p l = [].
Proof. induction l as [ | x l IH]; intros H; [reflexivity | ]. cbn. rewrite (H x) by now left. apply IH. intros; apply H; now right. Qed.
Lemma filter_ext_in' {X} (p q : X -> bool) l : (forall x, In x l -> p x = q x) -> filter p l = filter q l.
Proof. apply filter_ext_in. Qed.
Lemma existsb_map' {X Y} (f : X -> Y) (p : Y -> bool) l : existsb p (map f l) = existsb (fun x => p (f x)) l.
Proof. induction l as [ | x l IH]; [reflexivity | ]. cbn. now rewrite IH. Qed.
Lemma existsb_ext_in {X} (p q : X -> bool) l : (forall x, In x l -> p x = q x) -> existsb p l = existsb q l.
Proof. induction l as [ | x l IH]; intros H; [reflexivity | ]. cbn. rewrite (H x) by now left. f_equal. apply IH. intros; apply H; now right. Qed.

Lemma between_lt a b x : between a b x = true <-> a <= x < b.
Proof. unfold between. rewrite andb_true_iff, Nat.leb_le, Nat.ltb_lt. reflexivity. Qed.
Lemma between_no a b x : x < a -> between a b x = false.
Proof. intros H. unfold between. apply Nat.leb_gt in H. now rewrite H. Qed.

Definition fmt_same {K} (o : nat) (l l1 : lang K) : Prop :=
  forall q i, q < ln l -> q <> o -> fmt_of (at_inlet (lp l1) q i) = fmt_of (at_inlet (lp l) q i).

Section Replace.
Context {K : Type} (kzero : K).
Variables (G o : nat) (new : list (irty K)) (cs : list conn) (l : lang K).
Hypothesis OK : lang_ok l.
Hypothesis HL : is_lang (lt l o).
Let l1 := replace_object G o new cs l.

Lemma lang_lt q : is_lang (lt l q) -> q < ln l.
Proof. intros H. destruct (Nat.lt_ge_cases q (ln l)) as [ | Hge]; [assumption | ]. destruct (lo_free l OK q Hge) as [_ E]. rewrite E in H. destruct H. Qed.
Lemma kind_lt q : (lp l).(kind_of) q <> Outlet -> q < ln l.
Proof. intros H. destruct (Nat.lt_ge_cases q (ln l)) as [ | Hge]; [assumption | ]. destruct (lo_free l OK q Hge). congruence. Qed.
Lemma lang_leaf : exists ins outs, (lp l).(kind_of) o = Leaf true ins outs None.
Proof. destruct (lt l o) eqn:E; [rewrite (lo_bin l OK o _ _ E) | rewrite (lo_var l OK o _ E) | destruct HL]; eauto. Qed.

Lemma no_self c : In c (lp l).(conns) -> c.(c_to) = o -> c.(c_from) <> o.
Proof.
  intros Hc Ht Hf. destruct (lo_rank l OK) as [rank R]. destruct (lo_from l OK c Hc) as [_ S]; [now rewrite Hf | ].
  specialize (R c Hc S). rewrite Ht, Hf in R. lia.
Qed.

Lemma rep_ln : ln l1 = ln l + length new.
Proof. reflexivity. Qed.
Lemma rep_lt q : q < ln l -> q <> o -> lt l1 q = lt l q.
Proof. intros L Q. cbn. rewrite between_no by exact L. apply Nat.eqb_neq in Q. now rewrite Q. Qed.
Lemma rep_lt_o : lt l1 o = LIr IOther.
Proof. cbn. rewrite between_no by (now apply lang_lt). now rewrite Nat.eqb_refl. Qed.
Lemma rep_kind q : q < ln l -> q <> o -> same_kind ((lp l).(kind_of) q) ((lp l1).(kind_of) q).
Proof.
  intros L Q. cbn. rewrite between_no by exact L. apply Nat.eqb_neq in Q. rewrite Q.
  destruct (Nat.eqb_spec q G) as [-> | ]; [ | apply same_kind_refl]. destruct (kind_of (lp l) G); cbn; auto.
Qed.
Lemma rep_dac q sg ins outs ch : (lp l1).(kind_of) q = Leaf sg ins outs (Some ch) -> (lp l).(kind_of) q = Leaf sg ins outs (Some ch).
Proof.
  cbn. destruct (between _ _ q); [destruct (nth (q - ln l) new IOther); discriminate | ].
  destruct (Nat.eqb q o); [discriminate | ]. destruct (Nat.eqb_spec q G) as [-> | ]; [ | auto]. destruct (kind_of (lp l) G); auto; discriminate.
Qed.
Lemma rep_new_lt i : i < length new -> lt l1 (ln l + i) = LIr (nth i new IOther).
Proof.
  intros L. cbn. replace (between (ln l) (ln l + length new) (ln l + i)) with true by (symmetry; apply between_lt; lia).
  now replace (ln l + i - ln l) with i by lia.
Qed.
Lemma rep_new_kind i : i < length new -> (lp l1).(kind_of) (ln l + i) = kind_for (nth i new IOther).
Proof.
  intros L. cbn. replace (between (ln l) (ln l + length new) (ln l + i)) with true by (symmetry; apply between_lt; lia).
  now replace (ln l + i - ln l) with i by lia.
Qed.

Lemma rep_ok :
  (forall i y, nth_error new i = Some (IRead y) -> exists j k, y = ln l + j /\ nth_error new j = Some (IVar k)) ->
  (forall c, In c cs -> c.(c_from) < ln l + length new /\ c.(c_to) < ln l + length new) ->
  (forall c, In c cs -> c.(c_from) < ln l ->
     c.(c_from) <> o /\ exists c0, In c0 (lp l).(conns) /\ c0.(c_from) = c.(c_from) /\ c0.(c_out) = c.(c_out) /\ c0.(c_sig) = c.(c_sig)) ->
  (forall c, In c cs -> c.(c_to) < ln l ->
     c.(c_to) <> o /\ exists c0, In c0 (lp l).(conns) /\ c0.(c_to) = c.(c_to) /\ c0.(c_in) = c.(c_in) /\ c0.(c_sig) = c.(c_sig)) ->
  (exists rank, forall c, In c cs -> c.(c_sig) = true -> rank c.(c_from) < rank c.(c_to)) ->
  lang_ok l1.
Proof.
  intros HR HC HF HT HK.
  assert (Lo : o < ln l) by now apply lang_lt.
  assert (Hcase : forall q, is_lang (lt l1 q) -> q < ln l /\ q <> o /\ lt l1 q = lt l q).
  { intros q H. destruct (Nat.lt_ge_cases q (ln l)) as [Lq | Gq].
    - destruct (Nat.eq_dec q o) as [-> | Q]; [rewrite rep_lt_o in H; destruct H | ]. rewrite rep_lt in * by auto. auto.
    - exfalso. cbn in H. destruct (between (ln l) (ln l + length new) q); [destruct H | ].
      replace (Nat.eqb q o) with false in H by (symmetry; apply Nat.eqb_neq; lia). destruct (lo_free l OK q Gq) as [_ E]. rewrite E in H. destruct H. }
  split.
  - intros x Hx. rewrite rep_ln in Hx.
    assert (B : between (ln l) (ln l + length new) x = false).
    { destruct (between (ln l) (ln l + length new) x) eqn:E; [ | reflexivity]. apply between_lt in E. lia. }
    cbn. rewrite B. replace (Nat.eqb x o) with false by (symmetry; apply Nat.eqb_neq; lia).
    destruct (lo_free l OK x) as [E1 E2]; [lia | ]. rewrite E2. split; [ | reflexivity].
    destruct (Nat.eqb_spec x G) as [<- | ]; [now rewrite E1 | exact E1].
  - exact HC.
  - intros G0 objs il ol q E Hq.
    assert (E0 : exists objs', kind_of (lp l) G0 = Graph objs' il ol).
    { cbn in E. destruct (between (ln l) (ln l + length new) G0).
      - destruct (nth (G0 - ln l) new IOther); discriminate.
      - destruct (Nat.eqb G0 o); [discriminate | ]. destruct (Nat.eqb_spec G0 G) as [-> | ]; [ | eauto].
        destruct (kind_of (lp l) G); try discriminate. injection E as <- <- <-. eauto. }
    destruct E0 as [objs' E0]. destruct (lo_lets l OK G0 objs' il ol q E0 Hq) as [Lq Nq]. split; [rewrite rep_ln; lia | ].
    intros H. pose proof (Hcase q H) as (_ & _ & E1). rewrite E1 in H. now apply Nq.
  - intros q b a E. destruct (Hcase q) as (Lq & Qo & E1); [now rewrite E | ]. rewrite E1 in E.
    pose proof (rep_kind q Lq Qo) as S. rewrite (lo_bin l OK q b a E) in S. destruct (kind_of (lp l1) q); cbn in S; try contradiction; now rewrite <- S.
  - intros q k E. destruct (Hcase q) as (Lq & Qo & E1); [now rewrite E | ]. rewrite E1 in E.
    pose proof (rep_kind q Lq Qo) as S. rewrite (lo_var l OK q k E) in S. destruct (kind_of (lp l1) q); cbn in S; try contradiction; now rewrite <- S.
  - intros q y E. cbn in E. destruct (between (ln l) (ln l + length new) q) eqn:B.
    + apply between_lt in B. injection E as E.
      assert (En : nth_error new (q - ln l) = Some (IRead y)) by (rewrite <- E; apply nth_error_nth'; lia).
      destruct (HR _ _ En) as (j & k & -> & Ej). exists k. rewrite rep_new_lt by (apply nth_error_Some; congruence).
      now rewrite (nth_error_nth _ _ _ Ej).
    + destruct (Nat.eqb q o); [discriminate | ]. destruct (lo_read l OK q y E) as [k Ek]. exists k.
      rewrite rep_lt; auto.
      * destruct (Nat.lt_ge_cases y (ln l)) as [ | Hge]; [assumption | ]. destruct (lo_free l OK y Hge). congruence.
      * intros ->. rewrite Ek in HL. destruct HL.
  - intros c Hc H. pose proof (Hcase _ H) as (Lf & _ & E). destruct (HF c Hc Lf) as (_ & c0 & H0 & E1 & E2 & E3).
    rewrite E, <- E1 in H. rewrite <- E2, <- E3. now apply (lo_from l OK).
  - intros c b a Hc E. destruct (Hcase (c_to c)) as (Lf & _ & E'); [now rewrite E | ]. destruct (HT c Hc Lf) as (_ & c0 & H0 & E1 & E2 & E3).
    rewrite <- E2. apply (lo_to_bin l OK c0 b a H0). now rewrite E1, <- E'.
  - intros c k Hc E. destruct (Hcase (c_to c)) as (Lf & _ & E'); [now rewrite E | ]. destruct (HT c Hc Lf) as (_ & c0 & H0 & E1 & E2 & E3).
    rewrite <- E2, <- E3. apply (lo_to_var l OK c0 k H0). now rewrite E1, <- E'.
  - exact HK.
Qed.
End Replace.

(** ** Connections moved in place *)
Section Moved.
Context {K : Type}.
Variables (o : nat) (dst : nat -> nat * nat) (src : nat) (extra : list conn) (l : lang K).
Hypothesis OK : lang_ok l.
Hypothesis HL : is_lang (lt l o).
Hypothesis Hdst : forall i, ln l <= fst (dst i).
Hypothesis Hsrc : ln l <= src.
Hypothesis Hextra : forall c, In c extra -> ln l <= c.(c_from) /\ ln l <= c.(c_to).
Let cs := map (mv o dst src) (lp l).(conns) ++ extra.

Lemma mv_sig c : c_sig (mv o dst src c) = c_sig c.
Proof. unfold mv. destruct (Nat.eqb (c_to c) o), (Nat.eqb (c_from c) o); reflexivity. Qed.
Lemma mv_out c : c_out (mv o dst src c) = c_out c.
Proof. unfold mv. destruct (Nat.eqb (c_to c) o), (Nat.eqb (c_from c) o); reflexivity. Qed.
Lemma mv_from c : c_from (mv o dst src c) = if Nat.eqb (c_from c) o then src else c_from c.
Proof. unfold mv. destruct (Nat.eqb (c_to c) o), (Nat.eqb (c_from c) o); reflexivity. Qed.
Lemma mv_to c : c_to (mv o dst src c) = if Nat.eqb (c_to c) o then fst (dst (c_in c)) else c_to c.
Proof. unfold mv. destruct (Nat.eqb (c_to c) o), (Nat.eqb (c_from c) o); reflexivity. Qed.
Lemma mv_in c : c_in (mv o dst src c) = if Nat.eqb (c_to c) o then snd (dst (c_in c)) else c_in c.
Proof. unfold mv. destruct (Nat.eqb (c_to c) o), (Nat.eqb (c_from c) o); reflexivity. Qed.

Lemma at_old k q i : q < ln l -> q <> o ->
  at_inlet {| kind_of := k; conns := cs |} q i = map (mv o dst src) (at_inlet (lp l) q i).
Proof.
  intros L Q. unfold at_inlet. cbn [conns]. unfold cs. rewrite filter_app, filter_map'.
  rewrite (filter_none _ extra), app_nil_r.
  - f_equal. apply filter_ext_in. intros c Hc. rewrite mv_to, mv_in. destruct (Nat.eqb_spec (c_to c) o) as [E | E]; [ | reflexivity].
    replace (Nat.eqb (fst (dst (c_in c))) q) with false by (symmetry; apply Nat.eqb_neq; specialize (Hdst (c_in c)); lia).
    replace (Nat.eqb (c_to c) q) with false by (symmetry; apply Nat.eqb_neq; congruence). reflexivity.
  - intros c Hc. destruct (Hextra c Hc). replace (Nat.eqb (c_to c) q) with false by (symmetry; apply Nat.eqb_neq; lia). reflexivity.
Qed.
Lemma at_new k x i i' : ln l <= x ->
  (forall c, In c (lp l).(conns) -> c.(c_to) = o -> dst c.(c_in) = (x, i) <-> c.(c_in) = i') ->
  at_inlet {| kind_of := k; conns := cs |} x i =
  map (fun c => retarget c (x, i)) (at_inlet (lp l) o i') ++ filter (fun c => Nat.eqb c.(c_to) x && Nat.eqb c.(c_in) i) extra.
Proof.
  intros L D. unfold at_inlet. cbn [conns]. unfold cs. rewrite filter_app, filter_map'. f_equal.
  rewrite (filter_ext_in _ (fun c => Nat.eqb (c_to c) o && Nat.eqb (c_in c) i')).
  - apply map_ext_in. intros c Hc. apply filter_In in Hc as [Hc E]. apply andb_true_iff in E as [E1 E2].
    apply Nat.eqb_eq in E1. apply Nat.eqb_eq in E2. unfold mv. pose proof (no_self o l OK HL c Hc E1) as N. apply Nat.eqb_neq in N. rewrite N.
    rewrite E1, Nat.eqb_refl. f_equal. now apply D.
  - intros c Hc. rewrite mv_to, mv_in. destruct (Nat.eqb_spec (c_to c) o) as [E | E].
    + specialize (D c Hc E). cbn [andb]. destruct (Nat.eqb_spec (c_in c) i') as [E2 | E2].
      * apply D in E2. rewrite E2. cbn. now rewrite !Nat.eqb_refl.
      * apply not_true_is_false. intros F. apply andb_true_iff in F as [F1 F2]. apply Nat.eqb_eq in F1. apply Nat.eqb_eq in F2.
        apply E2. apply D. destruct (dst (c_in c)); cbn in *; congruence.
    + cbn [andb]. apply not_true_is_false. intros F. apply andb_true_iff in F as [F1 _]. apply Nat.eqb_eq in F1.
      pose proof (lo_conn l OK c Hc). lia.
Qed.
Lemma at_new_none k x i : ln l <= x ->
  (forall c, In c (lp l).(conns) -> c.(c_to) = o -> dst c.(c_in) <> (x, i)) ->
  at_inlet {| kind_of := k; conns := cs |} x i = filter (fun c => Nat.eqb c.(c_to) x && Nat.eqb c.(c_in) i) extra.
Proof.
  intros L D. unfold at_inlet. cbn [conns]. unfold cs. rewrite filter_app, filter_map', filter_none; [reflexivity | ].
  intros c Hc. rewrite mv_to, mv_in. apply not_true_is_false. intros F. apply andb_true_iff in F as [F1 F2].
  apply Nat.eqb_eq in F1. apply Nat.eqb_eq in F2. destruct (Nat.eqb_spec (c_to c) o) as [E | E].
  - apply (D c Hc E). destruct (dst (c_in c)); cbn in *; congruence.
  - pose proof (lo_conn l OK c Hc). lia.
Qed.
End Moved.
