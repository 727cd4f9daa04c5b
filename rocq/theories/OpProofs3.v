(** The cases of the reduction, one object at a time. *)
From Verif Require Import RewriteModel OpModel OpSpec OpProofs OpProofs2.
From Coq Require Import Permutation.

Definition sender (x y : nat) (c : conn) : bool := negb c.(c_sig) && Nat.eqb c.(c_from) x && Nat.eqb c.(c_out) y.
Lemma held_eq {A K} (trace : list (nat * nat * A)) (l1 l : lang K) q i q' i' init :
  (forall x y, existsb (sender x y) (at_inlet (lp l1) q' i') = existsb (sender x y) (at_inlet (lp l) q i)) ->
  held trace l1 q' i' init = held trace l q i init.
Proof.
  intros H. unfold held. revert init. induction trace as [ | e tr IH]; intros init; [reflexivity | ].
  cbn [fold_left]. specialize (H (fst (fst e)) (snd (fst e))) as H'. unfold sender in H'. rewrite H'. apply IH.
Qed.
Lemma held_none {A K} (trace : list (nat * nat * A)) (l : lang K) q i init :
  (forall c, In c (at_inlet (lp l) q i) -> c.(c_sig) = true) -> held trace l q i init = init.
Proof.
  intros H. unfold held. revert init. induction trace as [ | e tr IH]; intros init; [reflexivity | ]. cbn [fold_left].
  replace (existsb _ (at_inlet (lp l) q i)) with false; [apply IH | ]. symmetry. apply not_true_is_false. intros E.
  apply existsb_exists in E as (c & Hc & E). rewrite (H c Hc) in E. discriminate.
Qed.

Section Plain.
Context {K : Type}.
(** ** Formats *)
Lemma fmt_sig cs : fmt_of cs = FSig -> cs <> [] /\ forall c, In c cs -> c.(c_sig) = true.
Proof.
  unfold fmt_of. destruct (existsb c_sig cs) eqn:E1, (existsb (fun c => negb (c_sig c)) cs) eqn:E2; try discriminate. intros _. split.
  - intros ->. discriminate.
  - intros c Hc. destruct (c_sig c) eqn:E; [reflexivity | ]. rewrite (proj2 (existsb_exists _ cs)) in E2; [discriminate | ]. exists c. now rewrite E.
Qed.
Lemma fmt_none cs : fmt_of cs = FNone -> cs = [].
Proof.
  destruct cs as [ | c cs]; [reflexivity | ]. unfold fmt_of. cbn. destruct (c_sig c); cbn; [destruct (existsb (fun c => negb (c_sig c)) cs) | destruct (existsb c_sig cs)]; discriminate.
Qed.
Lemma fmt_ctl cs : fmt_of cs = FCtl -> cs <> [] /\ forall c, In c cs -> c.(c_sig) = false.
Proof.
  unfold fmt_of. destruct (existsb c_sig cs) eqn:E1, (existsb (fun c => negb (c_sig c)) cs) eqn:E2; try discriminate. intros _. split.
  - intros ->. discriminate.
  - intros c Hc. destruct (c_sig c) eqn:E; [ | reflexivity]. rewrite (proj2 (existsb_exists _ cs)) in E1; [discriminate | ]. exists c. now rewrite E.
Qed.
Lemma signals_all cs : (forall c, In c cs -> c.(c_sig) = true) -> signals cs = cs.
Proof. unfold signals. induction cs as [ | c cs IH]; intros H; [reflexivity | ]. cbn. rewrite (H c) by now left. f_equal. apply IH. intros; apply H; now right. Qed.
Lemma signals_no cs : (forall c, In c cs -> c.(c_sig) = false) -> signals cs = [].
Proof. apply filter_none. Qed.
Lemma to_o (l : lang K) o i c : In c (at_inlet (lp l) o i) <-> In c (lp l).(conns) /\ c.(c_to) = o /\ c.(c_in) = i.
Proof. unfold at_inlet. rewrite filter_In, andb_true_iff, !Nat.eqb_eq. tauto. Qed.
Lemma from_o (l : lang K) o i c : In c (at_outlet (lp l) o i) <-> In c (lp l).(conns) /\ c.(c_from) = o /\ c.(c_out) = i.
Proof. unfold at_outlet. rewrite filter_In, andb_true_iff, !Nat.eqb_eq. tauto. Qed.

(** ** What new objects compute *)
Section New.
Context {A : Type} (kzero : K) (op : bop -> A -> A -> A) (neg : A -> A) (zero : A) (cst : K -> A) (inp : nat -> A) (other : nat -> list A -> nat -> A) (trace : list (nat * nat * A)).
Variables (l1 : lang K) (V1 : nat -> nat -> A).
Hypothesis M : meaning op neg zero kzero cst inp other trace l1 V1.
Lemma new_bin x b : lt l1 x = LIr (IBin b) -> (lp l1).(kind_of) x = bin_kind ->
  exists u w, takes op l1 V1 x 0 zero u /\ takes op l1 V1 x 1 zero w /\ V1 x 0 = op b u w.
Proof.
  intros E Ek. destruct (mn_ir _ _ _ _ _ _ _ _ _ _ M x _ _ _ _ E Ek) as (xs & F & Ev). cbn in F.
  inversion F as [ | ? u ? xs1 T0 F1]; subst. inversion F1 as [ | ? w ? xs2 T1 F2]; subst. inversion F2; subst.
  exists u, w. split; [exact T0 | ]. split; [exact T1 | ]. rewrite (Ev 0). unfold ir_value. now rewrite E.
Qed.
Lemma new_neg x : lt l1 x = LIr INeg -> (lp l1).(kind_of) x = Leaf true [Some false] [Some false] None ->
  exists u, takes op l1 V1 x 0 zero u /\ V1 x 0 = neg u.
Proof.
  intros E Ek. destruct (mn_ir _ _ _ _ _ _ _ _ _ _ M x _ _ _ _ E Ek) as (xs & F & Ev). cbn in F.
  inversion F as [ | ? u ? xs1 T0 F1]; subst. inversion F1; subst.
  exists u. split; [exact T0 | ]. rewrite (Ev 0). unfold ir_value. now rewrite E.
Qed.
Lemma new_const x k : lt l1 x = LIr (IConst k) -> (lp l1).(kind_of) x = Leaf true [] [Some false] None -> V1 x 0 = cst k.
Proof.
  intros E Ek. destruct (mn_ir _ _ _ _ _ _ _ _ _ _ M x _ _ _ _ E Ek) as (xs & F & Ev). cbn in F.
  inversion F; subst. rewrite (Ev 0). unfold ir_value. now rewrite E.
Qed.
Lemma new_read x y k : lt l1 x = LIr (IRead y) -> (lp l1).(kind_of) x = Leaf true [] [Some false] None -> lt l1 y = LIr (IVar k) ->
  V1 x 0 = held trace l1 y 0 (cst k).
Proof.
  intros E Ek Ey. destruct (mn_ir _ _ _ _ _ _ _ _ _ _ M x _ _ _ _ E Ek) as (xs & F & Ev). cbn in F.
  inversion F; subst. rewrite (Ev 0). unfold ir_value. now rewrite E, Ey.
Qed.
End New.

(** The inputs of a new object that are those of the old one. *)
Lemma arriving_new {A} G o new dst src extra (l : lang K) v (V1 : nat -> nat -> A) x i i' :
  lang_ok l -> is_lang (lt l o) -> ln l <= x -> ln l <= src ->
  (forall c, In c (lp l).(conns) -> c.(c_to) = o -> dst c.(c_in) = (x, i) <-> c.(c_in) = i') ->
  (forall c, In c extra -> c.(c_to) = x -> c.(c_in) <> i) ->
  arriving (replace_object G o new (map (mv o dst src) (lp l).(conns) ++ extra) l) V1 x i = arriving l (put o v V1) o i'.
Proof.
  intros OK HL Lx Ls D E. unfold arriving. cbn [lp replace_object]. rewrite (at_new o dst src extra l OK HL Ls _ x i i' Lx D).
  rewrite (filter_none _ extra), app_nil_r.
  - unfold signals. rewrite filter_map', map_map. cbn [retarget c_from c_out c_sig fst snd].
    apply map_ext_in. intros c Hc. apply filter_In in Hc as [Hc _]. apply to_o in Hc as (Hc & Ht & _).
    symmetry. apply put_other. now apply (no_self o l OK HL).
  - intros c Hc. apply not_true_is_false. intros F. apply andb_true_iff in F as [F1 F2]. apply Nat.eqb_eq in F1. apply Nat.eqb_eq in F2.
    now apply (E c Hc).
Qed.
Lemma held_new {A} (trace : list (nat * nat * A)) G o new dst src extra (l : lang K) x i i' init :
  lang_ok l -> is_lang (lt l o) -> ln l <= x -> ln l <= src ->
  (forall c, In c (lp l).(conns) -> c.(c_to) = o -> dst c.(c_in) = (x, i) <-> c.(c_in) = i') ->
  (forall c, In c extra -> c.(c_sig) = true) ->
  held trace (replace_object G o new (map (mv o dst src) (lp l).(conns) ++ extra) l) x i init = held trace l o i' init.
Proof.
  intros OK HL Lx Ls D E. apply held_eq. intros p q. cbn [lp replace_object]. rewrite (at_new o dst src extra l OK HL Ls _ x i i' Lx D).
  rewrite existsb_app, existsb_map'. rewrite orb_comm. replace (existsb (sender p q) (filter _ extra)) with false; [reflexivity | ].
  symmetry. apply not_true_is_false. intros F. apply existsb_exists in F as (c & Hc & F). apply filter_In in Hc as [Hc _].
  unfold sender in F. rewrite (E c Hc) in F. discriminate.
Qed.
Lemma nonempty_arriving {A} (l : lang K) (V : nat -> nat -> A) o i : fmt_of (at_inlet (lp l) o i) = FSig -> arriving l V o i <> [].
Proof.
  intros F. apply fmt_sig in F as [N S]. unfold arriving. rewrite signals_all by exact S. destruct (at_inlet (lp l) o i); [congruence | discriminate].
Qed.
Lemma rank_pos (l : lang K) rank o i : (forall c, In c (lp l).(conns) -> c.(c_sig) = true -> rank c.(c_from) < rank c.(c_to)) ->
  fmt_of (at_inlet (lp l) o i) = FSig -> 0 < rank o.
Proof.
  intros R F. apply fmt_sig in F as [N S]. destruct (at_inlet (lp l) o i) as [ | c cs] eqn:E; [congruence | ].
  assert (Hc : In c (at_inlet (lp l) o i)) by (rewrite E; now left). specialize (S c (or_introl eq_refl)).
  apply to_o in Hc as (Hc & Ht & _). specialize (R c Hc S). rewrite Ht in R. lia.
Qed.

End Plain.

Section Cases.
Context {K : Type} (kzero : K) (is_zero is_one is_minus_one : K -> bool).

Record good_step (o : nat) (l l1 : lang K) : Prop := {
  gs_ok : lang_ok l1;
  gs_ln : ln l <= ln l1;
  gs_lt : forall q, q < ln l -> q <> o -> lt l1 q = lt l q;
  gs_new : forall q, is_lang (lt l1 q) -> q < ln l /\ q <> o;
  gs_fmt : fmt_same o l l1;
  gs_dac : forall q sg ins outs ch, (lp l1).(kind_of) q = Leaf sg ins outs (Some ch) -> (lp l).(kind_of) q = Leaf sg ins outs (Some ch);
  gs_kind : forall q, q < ln l -> q <> o -> same_kind ((lp l).(kind_of) q) ((lp l1).(kind_of) q);
  gs_sem : forall (A : Type) op neg (zero : A) cst inp other trace, laws op neg zero kzero cst is_zero is_one is_minus_one ->
    forall V1, meaning op neg zero kzero cst inp other trace l1 V1 ->
    exists V, meaning op neg zero kzero cst inp other trace l V /\ (forall q j, q <> o -> V q j = V1 q j) /\
      forall q i, q < ln l -> q <> o -> Permutation (arriving l V q i) (arriving l1 V1 q i) }.

Lemma rep_new_lang G o new cs l : lang_ok l -> is_lang (lt l o) ->
  forall q, is_lang (lt (replace_object (K:=K) G o new cs l) q) -> q < ln l /\ q <> o.
Proof.
  intros OK HL q H. cbn in H. destruct (between (ln l) (ln l + length new) q); [destruct H | ].
  destruct (Nat.eqb_spec q o) as [E | E]; [destruct H | ]. split; [ | exact E]. now apply (lang_lt l OK).
Qed.

Lemma moved_step G o new dst src extra l :
  lang_ok l -> is_lang (lt l o) ->
  let l1 := replace_object G o new (map (mv o dst src) (lp l).(conns) ++ extra) l in
  (forall i y, nth_error new i = Some (IRead y) -> exists j k, y = ln l + j /\ nth_error new j = Some (IVar k)) ->
  (forall i, ln l <= fst (dst i) < ln l + length new) -> ln l <= src < ln l + length new ->
  (forall c, In c extra -> (ln l <= c.(c_from) < ln l + length new) /\ (ln l <= c.(c_to) < ln l + length new)) ->
  (forall rank, (forall c, In c (lp l).(conns) -> c.(c_sig) = true -> rank c.(c_from) < rank c.(c_to)) ->
     exists rn : nat -> nat,
       (forall c, In c (lp l).(conns) -> c.(c_to) = o -> c.(c_sig) = true -> rank o <= rn (fst (dst c.(c_in)))) /\
       rn src <= rank o /\ forall c, In c extra -> rn c.(c_from) < rn c.(c_to)) ->
  (forall (A : Type) op neg (zero : A) cst inp other trace, laws op neg zero kzero cst is_zero is_one is_minus_one ->
     forall V1, meaning op neg zero kzero cst inp other trace l1 V1 ->
     let V := put o (V1 src 0) V1 in
     (forall b a, lt l o = LBin b a ->
       exists x y, takes op l V o 0 (held trace l o 0 zero) x /\ takes op l V o 1 (held trace l o 1 (cst (k_of kzero a))) y /\ V1 src 0 = op b x y) /\
     (forall k, lt l o = LVar k -> V1 src 0 = held trace l o 0 (cst k))) ->
  good_step o l l1.
Proof.
  intros OK HL l1 HR Hdst Hsrc Hex Hrk Hval.
  assert (Lo : o < ln l) by now apply (lang_lt l OK).
  assert (Hat : forall q i, q < ln l -> q <> o -> at_inlet (lp l1) q i = map (mv o dst src) (at_inlet (lp l) q i)).
  { intros q i L Q. apply (at_old o dst src extra l); [intros j; apply Hdst | lia | intros c Hc; destruct (Hex c Hc); lia | exact L | exact Q]. }
  split.
  - apply rep_ok; auto.
    + intros c Hc. apply in_app_iff in Hc as [Hc | Hc]; [ | destruct (Hex c Hc); lia].
      apply in_map_iff in Hc as (c0 & <- & H0). rewrite mv_from, mv_to. destruct (lo_conn l OK c0 H0). specialize (Hdst (c_in c0)).
      destruct (Nat.eqb (c_from c0) o), (Nat.eqb (c_to c0) o); lia.
    + intros c Hc Lc. apply in_app_iff in Hc as [Hc | Hc]; [ | destruct (Hex c Hc); lia].
      apply in_map_iff in Hc as (c0 & <- & H0). rewrite mv_from, mv_out, mv_sig in *. destruct (Nat.eqb_spec (c_from c0) o) as [E | E]; [lia | ]. split; [exact E | ]. exists c0. auto.
    + intros c Hc Lc. apply in_app_iff in Hc as [Hc | Hc]; [ | destruct (Hex c Hc); lia].
      apply in_map_iff in Hc as (c0 & <- & H0). rewrite mv_to, mv_in, mv_sig in *. specialize (Hdst (c_in c0)). destruct (Nat.eqb_spec (c_to c0) o) as [E | E]; [lia | ]. split; [exact E | ]. exists c0. auto.
    + destruct (lo_rank l OK) as [rank R]. destruct (Hrk rank R) as (rn & R1 & R2 & R3).
      exists (fun q => if Nat.ltb q (ln l) then rank q else rn q). intros c Hc S.
      apply in_app_iff in Hc as [Hc | Hc].
      * apply in_map_iff in Hc as (c0 & <- & H0). rewrite mv_sig in S. rewrite mv_from, mv_to. destruct (lo_conn l OK c0 H0) as [L1 L2].
        specialize (R c0 H0 S). pose proof (no_self o l OK HL c0 H0) as NS. specialize (Hdst (c_in c0)). specialize (R1 c0 H0).
        destruct (Nat.eqb_spec (c_from c0) o) as [E1 | E1], (Nat.eqb_spec (c_to c0) o) as [E2 | E2].
        -- exfalso. now apply NS.
        -- replace (Nat.ltb src (ln l)) with false by (symmetry; apply Nat.ltb_ge; lia).
           apply Nat.ltb_lt in L2. rewrite L2. rewrite E1 in R. lia.
        -- replace (Nat.ltb (fst (dst (c_in c0))) (ln l)) with false by (symmetry; apply Nat.ltb_ge; lia).
           apply Nat.ltb_lt in L1. rewrite L1. rewrite E2 in R. specialize (R1 E2 S). lia.
        -- apply Nat.ltb_lt in L1, L2. now rewrite L1, L2.
      * destruct (Hex c Hc). replace (Nat.ltb (c_from c) (ln l)) with false by (symmetry; apply Nat.ltb_ge; lia).
        replace (Nat.ltb (c_to c) (ln l)) with false by (symmetry; apply Nat.ltb_ge; lia). auto.
  - unfold l1. rewrite rep_ln. lia.
  - intros q L Q. now apply rep_lt.
  - apply rep_new_lang; auto.
  - intros q i L Q. rewrite Hat by auto. unfold fmt_of.
    replace (existsb c_sig (map (mv o dst src) (at_inlet (lp l) q i))) with (existsb c_sig (at_inlet (lp l) q i))
      by (rewrite existsb_map'; apply existsb_ext_in; intros; now rewrite mv_sig).
    replace (existsb (fun c => negb (c_sig c)) (map (mv o dst src) (at_inlet (lp l) q i))) with (existsb (fun c => negb (c_sig c)) (at_inlet (lp l) q i))
      by (rewrite existsb_map'; apply existsb_ext_in; intros; now rewrite mv_sig).
    reflexivity.
  - intros q sg ins outs ch. apply rep_dac.
  - intros q L Q. now apply rep_kind.
  - intros A op neg zero cst inp other trace LA V1 M.
    destruct (Hval A op neg zero cst inp other trace LA V1 M) as [E1 E2].
    assert (Harr : forall q i, q < ln l -> q <> o -> arriving l (put o (V1 src 0) V1) q i = arriving l1 V1 q i).
    { intros q i L Q. unfold arriving. rewrite Hat by auto. unfold signals. rewrite filter_map', map_map.
      rewrite (filter_ext_in' (fun x => c_sig (mv o dst src x)) c_sig) by (intros; apply mv_sig). apply map_ext_in. intros c Hc. apply filter_In in Hc as [Hc S].
      apply filter_In in Hc as [Hc _]. rewrite mv_from, mv_out. unfold put. destruct (Nat.eqb_spec (c_from c) o) as [E | E]; [ | reflexivity].
      destruct (lo_from l OK c Hc) as [-> _]; [now rewrite E | reflexivity]. }
    exists (put o (V1 src 0) V1). split; [ | split].
    + eapply step_meaning; eauto.
      * split.
        -- unfold l1. rewrite rep_ln. lia.
        -- intros q L Q. now apply rep_lt.
        -- intros q L Q. now apply rep_kind.
        -- intros q i init L Q. apply held_eq. intros x y. rewrite Hat by auto. rewrite existsb_map'. apply existsb_ext_in.
           intros c Hc. unfold sender. rewrite mv_sig, mv_from, mv_out. destruct (Nat.eqb_spec (c_from c) o) as [E | E]; [ | reflexivity].
           apply filter_In in Hc as [Hc _]. destruct (lo_from l OK c Hc) as [_ ->]; [now rewrite E | reflexivity].
      * intros q i L Q. rewrite Harr by auto. reflexivity.
    + intros q j Q. now apply put_other.
    + intros q i L Q. now rewrite Harr.
Qed.
(** ** "ff" *)
Lemma ff_step G o b a l : lang_ok l -> lt l o = LBin b a ->
  fmt_of (at_inlet (lp l) o 0) = FSig -> fmt_of (at_inlet (lp l) o 1) = FSig -> good_step o l (becomes G o (IBin b) l).
Proof.
  intros OK E F0 F1. assert (HL : is_lang (lt l o)) by now rewrite E. unfold becomes. rewrite <- (app_nil_r (map _ _)).
  apply moved_step; auto.
  - intros [ | [ | i]] y; cbn; discriminate.
  - intros i. cbn. lia.
  - cbn. lia.
  - intros c [].
  - intros rank R. exists (fun _ => rank o). split; [auto | ]. split; [auto | ]. intros c [].
  - intros A op neg zero cst inp other trace LA V1 M V. split; [ | intros k E'; congruence].
    intros b' a' E'. rewrite E in E'. injection E' as <- <-.
    destruct (new_bin _ _ _ _ _ _ _ _ _ _ M (ln l) b) as (u & w & T0 & T1 & Ev).
    { pose proof (rep_new_lt G o [IBin b] (map (mv o (fun i => (ln l, i)) (ln l)) (conns (lp l)) ++ []) l 0) as Q. rewrite Nat.add_0_r in Q. apply Q. cbn; lia. }
    { pose proof (rep_new_kind G o [IBin b] (map (mv o (fun i => (ln l, i)) (ln l)) (conns (lp l)) ++ []) l 0) as Q. rewrite Nat.add_0_r in Q. apply Q. cbn; lia. }
    exists u, w. unfold takes in T0, T1.
    rewrite (arriving_new G o _ _ _ _ l (V1 (ln l) 0) V1 (ln l) 0 0) in T0; auto; [ | intros; split; congruence].
    rewrite (arriving_new G o _ _ _ _ l (V1 (ln l) 0) V1 (ln l) 1 1) in T1; auto; [ | intros; split; congruence].
    split; [ | split; [ | exact Ev]].
    + eapply takes_some; [now apply nonempty_arriving | exact T0].
    + eapply takes_some; [now apply nonempty_arriving | exact T1].
Qed.
End Cases.
