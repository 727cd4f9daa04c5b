(** Operators that disappear. *)
From Verif Require Import RewriteModel OpModel OpSpec OpProofs OpProofs2 OpProofs3 OpProofs4.
From Coq Require Import Permutation.

Lemma filter_filter' {X} (p q : X -> bool) l : filter p (filter q l) = filter (fun x => q x && p x) l.
Proof. induction l as [ | x l IH]; [reflexivity | ]. cbn. destruct (q x); cbn; [destruct (p x) | ]; now rewrite IH. Qed.
Lemma filter_split {X} (p a : X -> bool) l : Permutation (filter p l) (filter (fun x => negb (a x) && p x) l ++ filter (fun x => a x && p x) l).
Proof.
  induction l as [ | x l IH]; [reflexivity | ]. cbn. destruct (a x), (p x); cbn; auto.
  rewrite IH. apply Permutation_middle.
Qed.
Lemma existsb_perm {X} (p : X -> bool) l l' : Permutation l l' -> existsb p l = existsb p l'.
Proof.
  intros P. induction P; cbn; try congruence. rewrite !orb_assoc. f_equal. apply orb_comm.
Qed.
Lemma existsb_none {X} (p : X -> bool) l : (forall x, In x l -> p x = false) -> existsb p l = false.
Proof. induction l as [ | x l IH]; intros H; [reflexivity | ]. cbn. rewrite (H x) by now left. apply IH. intros; apply H; now right. Qed.

Lemma filter_all {X} (p : X -> bool) l : (forall x, In x l -> p x = true) -> filter p l = l.
Proof. induction l as [ | x l IH]; intros H; [reflexivity | ]. cbn. rewrite (H x) by now left. f_equal. apply IH. intros; apply H; now right. Qed.

Section Plain.
Context {K : Type}.
(** What another object gets: the untouched connections and those from [o]. *)
Lemma inlet_parts (l : lang K) o q i : q <> o ->
  Permutation (at_inlet (lp l) q i)
    (filter (fun c => Nat.eqb c.(c_to) q && Nat.eqb c.(c_in) i) (untouched o l) ++
     filter (fun c => Nat.eqb c.(c_from) o && (Nat.eqb c.(c_to) q && Nat.eqb c.(c_in) i)) (lp l).(conns)).
Proof.
  intros Q. unfold at_inlet, untouched. rewrite filter_filter'.
  rewrite (filter_split _ (fun c => Nat.eqb (c_from c) o)). apply Permutation_app_tail.
  replace (filter (fun x => negb (touches o x) && (Nat.eqb (c_to x) q && Nat.eqb (c_in x) i)) (conns (lp l)))
    with (filter (fun x => negb (Nat.eqb (c_from x) o) && (Nat.eqb (c_to x) q && Nat.eqb (c_in x) i)) (conns (lp l))); [reflexivity | ].
  apply filter_ext_in. intros c _. unfold touches. destruct (Nat.eqb_spec (c_to c) q) as [E | E].
  - replace (Nat.eqb (c_to c) o) with false by (symmetry; apply Nat.eqb_neq; congruence). now rewrite orb_false_r.
  - cbn. now rewrite !andb_false_r.
Qed.
Lemma outlet_parts (l : lang K) o q i : lang_ok l -> is_lang (lt l o) ->
  filter (fun c => Nat.eqb c.(c_from) o && (Nat.eqb c.(c_to) q && Nat.eqb c.(c_in) i)) (lp l).(conns) =
  filter (fun c => Nat.eqb c.(c_to) q && Nat.eqb c.(c_in) i) (at_outlet (lp l) o 0).
Proof.
  intros OK HL. unfold at_outlet. rewrite filter_filter'. apply filter_ext_in. intros c Hc.
  destruct (Nat.eqb_spec (c_from c) o) as [E | E]; [ | reflexivity].
  destruct (lo_from l OK c Hc) as [-> _]; [now rewrite E | reflexivity].
Qed.
End Plain.

Section Cases.
Context {K : Type} (kzero : K) (is_zero is_one is_minus_one : K -> bool).
Notation good_step := (good_step kzero is_zero is_one is_minus_one).

(** Nobody listens. *)
Lemma unheard_step G o new cs l :
  lang_ok l -> is_lang (lt l o) -> at_outlet (lp l) o 0 = [] ->
  let l1 := replace_object G o new cs l in
  lang_ok l1 -> (forall q i, q < ln l -> q <> o -> at_inlet (lp l1) q i = at_inlet (lp l) q i) ->
  good_step o l l1.
Proof.
  intros OK HL N l1 OK1 Hat.
  apply gone_step; auto.
  - intros q i L Q. fold l1. now rewrite Hat.
  - intros q i L Q x y. fold l1. now rewrite Hat.
  - intros A op neg zero cst inp other trace LA V1 M.
    assert (Hno : forall c, In c (lp l).(conns) -> c.(c_from) <> o).
    { intros c Hc Hf. destruct (lo_from l OK c Hc) as [Eo _]; [now rewrite Hf | ].
      assert (In c (at_outlet (lp l) o 0)) as I by (apply from_o; auto). rewrite N in I. destruct I. }
    assert (Harr : forall v q i, arriving l (put o v V1) q i = arriving l V1 q i).
    { intros v q i. unfold arriving. apply map_ext_in. intros c Hc. apply filter_In in Hc as [Hc _]. apply filter_In in Hc as [Hc _]. apply put_other. auto. }
    assert (P : forall v q i, q < ln l -> q <> o -> Permutation (arriving l (put o v V1) q i) (arriving l1 V1 q i)).
    { intros v q i L Q. rewrite Harr. unfold arriving. rewrite Hat by auto. reflexivity. }
    assert (T : forall v q i open x, takes op l V1 q i open x -> takes op l (put o v V1) q i open x).
    { intros v q i open x. unfold takes. now rewrite Harr. }
    destruct (lt l o) as [b a | k | ] eqn:E; [ | | destruct HL].
    + destruct (takes_exists op l V1 o 0 (held trace l o 0 zero)) as [x Tx].
      destruct (takes_exists op l V1 o 1 (held trace l o 1 (cst (k_of kzero a)))) as [y Ty].
      exists (op b x y). split; [ | split; [discriminate | auto]].
      intros b' a' E'. injection E' as <- <-. exists x, y. auto.
    + exists (held trace l o 0 (cst k)). split; [discriminate | ]. split; [ | auto]. intros k' E'. now injection E' as <-.
Qed.
Lemma remove_step G o l : lang_ok l -> is_lang (lt l o) -> at_outlet (lp l) o 0 = [] -> good_step o l (remove G o l).
Proof.
  intros OK HL N. assert (Lo : o < ln l) by now apply (lang_lt l OK). unfold remove.
  assert (Hu : forall c, In c (untouched o l) -> In c (lp l).(conns) /\ c.(c_from) <> o /\ c.(c_to) <> o).
  { intros c Hc. apply filter_In in Hc as [Hc E]. apply negb_true_iff in E. unfold touches in E. apply orb_false_iff in E as [E1 E2].
    apply Nat.eqb_neq in E1. apply Nat.eqb_neq in E2. auto. }
  apply unheard_step; auto.
  - apply rep_ok; auto.
    + intros [ | i] y; discriminate.
    + intros c Hc. destruct (Hu c Hc) as (H & _). pose proof (lo_conn l OK c H). cbn. lia.
    + intros c Hc _. destruct (Hu c Hc) as (H & H1 & H2). split; [exact H1 | ]. exists c. auto.
    + intros c Hc _. destruct (Hu c Hc) as (H & H1 & H2). split; [exact H2 | ]. exists c. auto.
    + destruct (lo_rank l OK) as [rank R]. exists rank. intros c Hc. destruct (Hu c Hc) as (H & _). auto.
  - intros q i L Q. unfold at_inlet. cbn [lp replace_object conns]. unfold untouched. rewrite filter_filter'. apply filter_ext_in.
    intros c Hc. unfold touches. replace (Nat.eqb (c_from c) o) with false.
    + destruct (Nat.eqb_spec (c_to c) o) as [E | E]; [ | reflexivity]. replace (Nat.eqb (c_to c) q) with false by (symmetry; apply Nat.eqb_neq; congruence). reflexivity.
    + symmetry. apply Nat.eqb_neq. intros Hf. destruct (lo_from l OK c Hc) as [Eo _]; [now rewrite Hf | ].
      assert (In c (at_outlet (lp l) o 0)) as I by (apply from_o; auto). rewrite N in I. destruct I.
Qed.
(** A var or operator that becomes a control object: nothing comes out of it either. *)
Lemma ctl_step G o l : lang_ok l -> is_lang (lt l o) -> at_outlet (lp l) o 0 = [] -> good_step o l (becomes G o ICtl l).
Proof.
  intros OK HL N. assert (Lo : o < ln l) by now apply (lang_lt l OK). unfold becomes.
  set (f := mv o (fun i => (ln l, i)) (ln l)).
  assert (Hno : forall c, In c (lp l).(conns) -> c.(c_from) <> o).
  { intros c Hc Hf. destruct (lo_from l OK c Hc) as [Eo _]; [now rewrite Hf | ].
    assert (In c (at_outlet (lp l) o 0)) as I by (apply from_o; auto). rewrite N in I. destruct I. }
  apply unheard_step; auto.
  - apply rep_ok; auto.
    + intros [ | [ | i]] y; discriminate.
    + intros c Hc. apply in_map_iff in Hc as (c0 & <- & H0). unfold f. rewrite mv_from, mv_to. destruct (lo_conn l OK c0 H0). cbn.
      destruct (Nat.eqb (c_from c0) o), (Nat.eqb (c_to c0) o); lia.
    + intros c Hc Lc. apply in_map_iff in Hc as (c0 & <- & H0). unfold f in *. rewrite mv_from, mv_out, mv_sig in *.
      destruct (Nat.eqb_spec (c_from c0) o) as [E | E]; [lia | ]. split; [exact E | ]. exists c0. auto.
    + intros c Hc Lc. apply in_map_iff in Hc as (c0 & <- & H0). unfold f in *. rewrite mv_to, mv_in, mv_sig in *. cbn [fst snd] in *.
      destruct (Nat.eqb_spec (c_to c0) o) as [E | E]; [lia | ]. split; [exact E | ]. exists c0. auto.
    + destruct (lo_rank l OK) as [rank R]. exists (fun q => if Nat.eqb q (ln l) then rank o else rank q). intros c Hc S.
      apply in_map_iff in Hc as (c0 & <- & H0). unfold f in *. rewrite mv_sig in S. rewrite mv_from, mv_to. cbn [fst]. specialize (R c0 H0 S). specialize (Hno c0 H0). destruct (lo_conn l OK c0 H0).
      replace (Nat.eqb (c_from c0) o) with false by (symmetry; apply Nat.eqb_neq; congruence).
      replace (Nat.eqb (c_from c0) (ln l)) with false by (symmetry; apply Nat.eqb_neq; lia).
      destruct (Nat.eqb_spec (c_to c0) o) as [E | E]; [rewrite Nat.eqb_refl; now rewrite E in R | ].
      replace (Nat.eqb (c_to c0) (ln l)) with false by (symmetry; apply Nat.eqb_neq; lia). exact R.
  - intros q i L Q. pose proof (at_old o (fun i => (ln l, i)) (ln l) [] l) as AO.
    cbn [lp replace_object]. rewrite app_nil_r in AO. rewrite AO; auto; try (intros c []); try (cbn; lia).
    rewrite <- map_id. apply map_ext_in. intros c Hc. apply to_o in Hc as (Hc & Ht & _). unfold mv.
    replace (Nat.eqb (c_from c) o) with false by (symmetry; apply Nat.eqb_neq; auto).
    now replace (Nat.eqb (c_to c) o) with false by (symmetry; apply Nat.eqb_neq; congruence).
Qed.

(** Its listeners get [s] instead. *)
Definition from_s (s so : nat) (v : conn) : conn := {| c_from := s; c_out := so; c_to := v.(c_to); c_in := v.(c_in); c_sig := true |}.
Lemma rewired_step G o new mid s so l :
  lang_ok l -> is_lang (lt l o) ->
  let l1 := replace_object G o new (untouched o l ++ mid ++ map (from_s s so) (at_outlet (lp l) o 0)) l in
  (forall i y, nth_error new i <> Some (IRead y)) ->
  (forall m, In m mid -> (ln l <= m.(c_to) < ln l + length new) /\
     exists c0, In c0 (lp l).(conns) /\ c0.(c_to) = o /\ c0.(c_from) = m.(c_from) /\ c0.(c_out) = m.(c_out) /\ c0.(c_sig) = m.(c_sig)) ->
  ((ln l <= s < ln l + length new) \/ exists c0, In c0 (lp l).(conns) /\ c0.(c_to) = o /\ c0.(c_from) = s /\ c0.(c_out) = so /\ c0.(c_sig) = true) ->
  (forall (A : Type) op neg (zero : A) cst inp other trace, laws op neg zero kzero cst is_zero is_one is_minus_one ->
     forall V1, meaning op neg zero kzero cst inp other trace l1 V1 ->
     let V := put o (V1 s so) V1 in
     (forall b a, lt l o = LBin b a ->
       exists x y, takes op l V o 0 (held trace l o 0 zero) x /\ takes op l V o 1 (held trace l o 1 (cst (k_of kzero a))) y /\ V1 s so = op b x y) /\
     (forall k, lt l o = LVar k -> V1 s so = held trace l o 0 (cst k))) ->
  good_step o l l1.
Proof.
  intros OK HL l1 HR HM HS HV. assert (Lo : o < ln l) by now apply (lang_lt l OK).
  assert (Hu : forall c, In c (untouched o l) -> In c (lp l).(conns) /\ c.(c_from) <> o /\ c.(c_to) <> o).
  { intros c Hc. apply filter_In in Hc as [Hc E]. apply negb_true_iff in E. unfold touches in E. apply orb_false_iff in E as [E1 E2].
    apply Nat.eqb_neq in E1. apply Nat.eqb_neq in E2. auto. }
  assert (Ho : forall c, In c (at_outlet (lp l) o 0) -> In c (lp l).(conns) /\ c.(c_from) = o /\ c.(c_sig) = true /\ c.(c_to) <> o).
  { intros c Hc. apply from_o in Hc as (Hc & Hf & _). split; [exact Hc | ]. split; [exact Hf | ]. split; [apply (lo_from l OK c Hc); now rewrite Hf | ].
    intros Ht. now apply (no_self o l OK HL c Hc Ht). }
  assert (Hs : s < ln l + length new /\ s <> o).
  { destruct HS as [HS | (c0 & H0 & Ht & <- & _)]; [lia | ]. pose proof (lo_conn l OK c0 H0). split; [lia | ]. now apply (no_self o l OK HL). }
  (* the inlets of the others *)
  assert (Hat : forall q i, q < ln l -> at_inlet (lp l1) q i =
    filter (fun c => Nat.eqb c.(c_to) q && Nat.eqb c.(c_in) i) (untouched o l) ++
    map (from_s s so) (filter (fun c => Nat.eqb c.(c_to) q && Nat.eqb c.(c_in) i) (at_outlet (lp l) o 0))).
  { intros q i L. unfold at_inlet at 1. cbn [lp l1 replace_object conns]. rewrite !filter_app, filter_map'. f_equal.
    rewrite (filter_none _ mid); [reflexivity | ]. intros m Hm. destruct (HM m Hm) as [B _].
    now replace (Nat.eqb (c_to m) q) with false by (symmetry; apply Nat.eqb_neq; lia). }
  assert (Hparts : forall q i, q <> o -> Permutation (at_inlet (lp l) q i)
    (filter (fun c => Nat.eqb c.(c_to) q && Nat.eqb c.(c_in) i) (untouched o l) ++
     filter (fun c => Nat.eqb c.(c_to) q && Nat.eqb c.(c_in) i) (at_outlet (lp l) o 0))).
  { intros q i Q. rewrite (inlet_parts l o q i Q), (outlet_parts l o q i OK HL). reflexivity. }
  apply gone_step; auto.
  - apply rep_ok; auto.
    + intros i y E. now apply HR in E.
    + intros c Hc. apply in_app_iff in Hc as [Hc | Hc]; [ | apply in_app_iff in Hc as [Hc | Hc]].
      * destruct (Hu c Hc) as (H & _). pose proof (lo_conn l OK c H). lia.
      * destruct (HM c Hc) as [B (c0 & H0 & _ & <- & _)]. pose proof (lo_conn l OK c0 H0). lia.
      * apply in_map_iff in Hc as (c0 & <- & H0). cbn. destruct (Ho c0 H0) as [H _]. pose proof (lo_conn l OK c0 H). lia.
    + intros c Hc Lc. apply in_app_iff in Hc as [Hc | Hc]; [ | apply in_app_iff in Hc as [Hc | Hc]].
      * destruct (Hu c Hc) as (H & H1 & H2). split; [exact H1 | ]. exists c. auto.
      * destruct (HM c Hc) as [B (c0 & H0 & Ht & Hf & Hx & Hg)]. split; [rewrite <- Hf; now apply (no_self o l OK HL) | ]. exists c0. auto.
      * apply in_map_iff in Hc as (c0 & <- & H0). cbn in *. split; [tauto | ]. destruct HS as [HS | (c1 & H1 & _ & Hf & Hx & Hg)]; [lia | ]. exists c1. auto.
    + intros c Hc Lc. apply in_app_iff in Hc as [Hc | Hc]; [ | apply in_app_iff in Hc as [Hc | Hc]].
      * destruct (Hu c Hc) as (H & H1 & H2). split; [exact H2 | ]. exists c. auto.
      * destruct (HM c Hc) as [B _]. lia.
      * apply in_map_iff in Hc as (c0 & <- & H0). cbn in *. destruct (Ho c0 H0) as (H1 & H2 & H3 & H4). split; [exact H4 | ]. exists c0. auto.
    + destruct (lo_rank l OK) as [rank R]. exists (fun q => if Nat.ltb q (ln l) then rank q else rank o). intros c Hc S.
      apply in_app_iff in Hc as [Hc | Hc]; [ | apply in_app_iff in Hc as [Hc | Hc]].
      * destruct (Hu c Hc) as (H & _). destruct (lo_conn l OK c H) as [L1 L2]. apply Nat.ltb_lt in L1, L2. rewrite L1, L2. auto.
      * destruct (HM c Hc) as [B (c0 & H0 & Ht & <- & _ & Hg)]. destruct (lo_conn l OK c0 H0) as [L1 _]. apply Nat.ltb_lt in L1. rewrite L1.
        replace (Nat.ltb (c_to c) (ln l)) with false by (symmetry; apply Nat.ltb_ge; lia). rewrite <- Ht. apply R; congruence.
      * apply in_map_iff in Hc as (c0 & <- & H0). cbn [from_s c_from c_to]. destruct (Ho c0 H0) as (H & H2 & H3 & _). destruct (lo_conn l OK c0 H) as [_ L2]. apply Nat.ltb_lt in L2. rewrite L2.
        specialize (R c0 H H3) as R0. rewrite H2 in R0.
        destruct (Nat.ltb_spec s (ln l)) as [L | L]; [ | exact R0]. destruct HS as [HS | (c1 & H1 & Ht & <- & _ & Hg)]; [lia | ].
        specialize (R c1 H1 Hg). rewrite Ht in R. lia.
  - intros q i L Q. fold l1. rewrite Hat by auto. unfold fmt_of. rewrite !(existsb_perm _ _ _ (Hparts q i Q)), !existsb_app, !existsb_map'.
    f_equal.
    assert (E1 : existsb (fun x => c_sig (from_s s so x)) (filter (fun c => Nat.eqb (c_to c) q && Nat.eqb (c_in c) i) (at_outlet (lp l) o 0))
               = existsb c_sig (filter (fun c => Nat.eqb (c_to c) q && Nat.eqb (c_in c) i) (at_outlet (lp l) o 0))).
    { apply existsb_ext_in. intros c Hc. apply filter_In in Hc as [Hc _]. symmetry. apply (Ho c Hc). }
    assert (E2 : existsb (fun x => negb (c_sig (from_s s so x))) (filter (fun c => Nat.eqb (c_to c) q && Nat.eqb (c_in c) i) (at_outlet (lp l) o 0))
               = existsb (fun c => negb (c_sig c)) (filter (fun c => Nat.eqb (c_to c) q && Nat.eqb (c_in c) i) (at_outlet (lp l) o 0))).
    { apply existsb_ext_in. intros c Hc. apply filter_In in Hc as [Hc _]. destruct (Ho c Hc) as (_ & _ & -> & _). reflexivity. }
    rewrite E1, E2. reflexivity.
  - intros q i L Q x y. fold l1. rewrite Hat by auto. rewrite (existsb_perm _ _ _ (Hparts q i Q)), !existsb_app, existsb_map'. f_equal.
    rewrite !existsb_none; [reflexivity | | ]; intros c Hc; [ | reflexivity].
    apply filter_In in Hc as [Hc _]. unfold sender. destruct (Ho c Hc) as (_ & _ & -> & _). reflexivity.
  - intros A op neg zero cst inp other trace LA V1 M. exists (V1 s so).
    destruct (HV A op neg zero cst inp other trace LA V1 M) as [H1 H2]. split; [exact H1 | ]. split; [exact H2 | ].
    intros q i L Q. unfold arriving. fold l1. rewrite Hat by auto.
    etransitivity.
    { apply Permutation_map. unfold signals.
      assert (PF : forall X (p : X -> bool) a b, Permutation a b -> Permutation (filter p a) (filter p b)).
      { intros X p a b P. induction P; cbn; auto; [destruct (p x); auto | destruct (p x), (p y); auto; constructor | etransitivity; eauto]. }
      apply PF, (Hparts q i Q). }
    unfold signals. rewrite !filter_app, !map_app. rewrite filter_map', map_map.
    apply Permutation_refl'. f_equal.
    + apply map_ext_in. intros c Hc. apply filter_In in Hc as [Hc _]. apply filter_In in Hc as [Hc _]. apply put_other. now apply (Hu c Hc).
    + rewrite (filter_ext_in (fun x => c_sig (from_s s so x)) c_sig).
      * apply map_ext_in. intros c Hc. apply filter_In in Hc as [Hc _]. apply filter_In in Hc as [Hc _]. destruct (Ho c Hc) as (_ & -> & _). now rewrite put_same.
      * intros c Hc. apply filter_In in Hc as [Hc _]. symmetry. apply (Ho c Hc).
Qed.

(** +~ 0, -~ 0, *~ 1, /~ 1 *)
Lemma pass_step G o b a l : lang_ok l -> lt l o = LBin b a -> is_identity is_zero is_one b (k_of kzero a) = true ->
  fmt_of (at_inlet (lp l) o 0) = FSig -> fmt_of (at_inlet (lp l) o 1) = FNone -> good_step o l (pass_through G o l).
Proof.
  intros OK E I F0 F1. assert (HL : is_lang (lt l o)) by now rewrite E. unfold pass_through.
  apply fmt_none in F1. apply fmt_sig in F0 as [N0 F0].
  assert (Hin : forall c, In c (at_inlet (lp l) o 0) -> In c (lp l).(conns) /\ c.(c_to) = o /\ c.(c_sig) = true).
  { intros c Hc. specialize (F0 c Hc). apply to_o in Hc as (Hc & Ht & _). auto. }
  assert (Hout : forall v, In v (at_outlet (lp l) o 0) -> v.(c_out) = 0 /\ v.(c_sig) = true).
  { intros v Hv. apply from_o in Hv as (Hv & Hf & _). apply (lo_from l OK v Hv). now rewrite Hf. }
  assert (ID : forall (A : Type) op neg (zero : A) cst, laws op neg zero kzero cst is_zero is_one is_minus_one -> forall x, x = op b x (cst (k_of kzero a))).
  { intros A op neg zero cst LA x. symmetry. destruct b; cbn in I; try discriminate; [eapply la_add | eapply la_sub | eapply la_mul | eapply la_div]; eauto. }
  assert (R1 : forall (A : Type) op trace (V : nat -> nat -> A) (cst : K -> A), takes op l V o 1 (held trace l o 1 (cst (k_of kzero a))) (cst (k_of kzero a))).
  { intros. unfold takes, arriving. rewrite F1. cbn [signals filter map]. now rewrite held_none by (rewrite F1; intros c []). }
  assert (AR : forall (A : Type) v (V1 : nat -> nat -> A), arriving l (put o v V1) o 0 = map (fun c => V1 (c_from c) (c_out c)) (at_inlet (lp l) o 0)).
  { intros A v V1. unfold arriving. rewrite signals_all by exact F0. apply map_ext_in. intros c Hc. apply put_other.
    destruct (Hin c Hc) as (H & Ht & _). now apply (no_self o l OK HL). }
  destruct (at_inlet (lp l) o 0) as [ | c cs] eqn:EI; [congruence | ]. destruct (Hin c (or_introl eq_refl)) as (Hc & Ht & Hs).
  destruct cs as [ | c' cs].
  - replace (map (fun v => retarget c (c_to v, c_in v)) (at_outlet (lp l) o 0)) with ([] ++ map (from_s (c_from c) (c_out c)) (at_outlet (lp l) o 0)).
    2: { cbn [app]. apply map_ext. intros v. unfold from_s, retarget. cbn. now rewrite Hs. }
    apply rewired_step; auto.
    + intros [ | i] y; discriminate.
    + intros m [].
    + right. exists c. auto.
    + intros A op neg zero cst inp other trace LA V1 M V. split; [ | intros k E'; congruence].
      intros b' a' E'. rewrite E in E'. injection E' as <- <-. exists (V1 (c_from c) (c_out c)), (cst (k_of kzero a)).
      split; [ | split; [apply R1 | eapply ID; eauto]]. unfold takes, V. rewrite AR. cbn. constructor.
  - set (rest := c' :: cs) in *.
    replace (untouched o l ++ retarget c (ln l, 0) :: map (fun c => retarget c (ln l, 1)) rest ++ map (fun c => refrom c (ln l)) (at_outlet (lp l) o 0))
      with (untouched o l ++ (retarget c (ln l, 0) :: map (fun c => retarget c (ln l, 1)) rest) ++ map (from_s (ln l) 0) (at_outlet (lp l) o 0)).
    2: { f_equal. cbn [app]. f_equal. f_equal. apply map_ext_in. intros v Hv. destruct (Hout v Hv) as [X Y]. unfold from_s, refrom. now rewrite X, Y. }
    apply rewired_step; auto.
    + intros [ | [ | i]] y; discriminate.
    + intros m [<- | Hm]; [cbn; split; [lia | exists c; auto] | ]. apply in_map_iff in Hm as (c0 & <- & H0). cbn. split; [lia | ].
      destruct (Hin c0 (or_intror H0)) as (X & Y & Z). exists c0. auto.
    + left. cbn. lia.
    + intros A op neg zero cst inp other trace LA V1 M V. split; [ | intros k E'; congruence].
      intros b' a' E'. rewrite E in E'. injection E' as <- <-.
      match goal with M : meaning _ _ _ _ _ _ _ _ (replace_object ?G ?o ?new ?cs l) _ |- _ =>
        pose proof (rep_new_lt G o new cs l 0) as Q; pose proof (rep_new_kind G o new cs l 0) as Q';
        rewrite ?Nat.add_0_r in Q, Q'; cbn [nth length kind_for] in Q, Q';
        specialize (Q ltac:(lia)); specialize (Q' ltac:(lia)); set (CS := cs) in *
      end.
      destruct (new_bin _ _ _ _ _ _ _ _ _ _ M (ln l) OAdd Q Q') as (u & w & T0 & T1 & Ev).
      assert (Hx : forall i, at_inlet (lp (replace_object G o [IBin OAdd] CS l)) (ln l) i =
                   filter (fun m => Nat.eqb m.(c_to) (ln l) && Nat.eqb m.(c_in) i) (retarget c (ln l, 0) :: map (fun c => retarget c (ln l, 1)) rest)).
      { intros i. unfold at_inlet. cbn [lp replace_object conns]. unfold CS. rewrite !filter_app.
        rewrite (filter_none _ (untouched o l)).
        - rewrite (filter_none _ (map _ _)); [now rewrite app_nil_r | ]. intros m Hm. apply in_map_iff in Hm as (v & <- & Hv). cbn.
          apply from_o in Hv as (Hv & _). pose proof (lo_conn l OK v Hv). now replace (Nat.eqb (c_to v) (ln l)) with false by (symmetry; apply Nat.eqb_neq; lia).
        - intros m Hm. apply filter_In in Hm as [Hm _]. pose proof (lo_conn l OK m Hm). now replace (Nat.eqb (c_to m) (ln l)) with false by (symmetry; apply Nat.eqb_neq; lia). }
      assert (H0 : at_inlet (lp (replace_object G o [IBin OAdd] CS l)) (ln l) 0 = [retarget c (ln l, 0)]).
      { rewrite Hx. cbn [filter retarget c_to c_in fst snd]. rewrite !Nat.eqb_refl. cbn [andb]. f_equal. apply filter_none.
        intros m Hm. apply in_map_iff in Hm as (v & <- & _). cbn. now rewrite andb_false_r. }
      assert (H1 : at_inlet (lp (replace_object G o [IBin OAdd] CS l)) (ln l) 1 = map (fun c => retarget c (ln l, 1)) rest).
      { rewrite Hx. cbn [filter retarget c_to c_in fst snd]. rewrite !Nat.eqb_refl. cbn [andb Nat.eqb].
        apply filter_all. intros m Hm. apply in_map_iff in Hm as (v & <- & _). cbn [retarget c_to c_in fst snd]. now rewrite Nat.eqb_refl. }
      exists (V1 (ln l) 0), (cst (k_of kzero a)).
      split; [ | split; [apply R1 | eapply ID; eauto]]. unfold takes, V. rewrite AR. cbn [map].
      unfold takes, arriving in T0, T1. rewrite H0 in T0. rewrite H1 in T1. cbn [signals filter retarget c_sig] in T0. rewrite Hs in T0.
      cbn [map c_from c_out retarget] in T0. apply sums_single in T0. rewrite T0 in Ev. rewrite Ev.
      rewrite signals_all in T1. 2: { intros m Hm. apply in_map_iff in Hm as (v & <- & Hv). cbn. apply (Hin v). now right. }
      rewrite map_map in T1. cbn [retarget c_from c_out] in T1.
      apply (sums_add (op OAdd) [V1 (c_from c) (c_out c)] (map (fun c => V1 (c_from c) (c_out c)) rest)); [reflexivity | constructor | exact T1].
Qed.
End Cases.
