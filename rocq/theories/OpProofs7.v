(** pd2hv: control inputs become vars. *)
From Verif Require Import RewriteModel OpModel OpSpec OpProofs OpProofs2 OpProofs3 OpProofs4 OpProofs5 OpProofs6.
From Coq Require Import Permutation.

Section Validate.
Context {K : Type} (kzero : K).
Notation to_signal := (to_signal kzero).

Definition redirect (o i n : nat) (c : conn) : conn :=
  if Nat.eqb c.(c_to) o && Nat.eqb c.(c_in) i && negb c.(c_sig) then retarget c (n, 0) else c.
Lemma rd_from o i n c : c_from (redirect o i n c) = c_from c.
Proof. unfold redirect. destruct (_ && _); reflexivity. Qed.
Lemma rd_out o i n c : c_out (redirect o i n c) = c_out c.
Proof. unfold redirect. destruct (_ && _); reflexivity. Qed.
Lemma rd_sig o i n c : c_sig (redirect o i n c) = c_sig c.
Proof. unfold redirect. destruct (_ && _); reflexivity. Qed.
Lemma rd_case o i n c : (c.(c_to) = o /\ c.(c_in) = i /\ c.(c_sig) = false /\ redirect o i n c = retarget c (n, 0)) \/
  (~ (c.(c_to) = o /\ c.(c_in) = i /\ c.(c_sig) = false) /\ redirect o i n c = c).
Proof.
  unfold redirect. destruct (Nat.eqb_spec (c_to c) o) as [E1 | E1]; [ | right; split; [tauto | reflexivity]].
  destruct (Nat.eqb_spec (c_in c) i) as [E2 | E2]; [ | right; split; [tauto | reflexivity]].
  destruct (c_sig c) eqn:E3; [right; split; [intuition congruence | reflexivity] | left; auto].
Qed.

Variables (G o i : nat) (b : bop) (a : option K) (l : lang K).
Hypothesis OK : lang_ok l.
Hypothesis E : lt l o = LBin b a.
Hypothesis Hi : i <= 1.
Let n := ln l.
Let l1 := to_signal G o i l.
Let Lo : o < n. Proof. apply (lang_lt l OK). now rewrite E. Qed.

Lemma ts_lt q : q < n -> lt l1 q = lt l q.
Proof. intros L. cbn. now replace (Nat.eqb q (ln l)) with false by (symmetry; apply Nat.eqb_neq; fold n; lia). Qed.
Lemma ts_lt_n : lt l1 n = LVar kzero.
Proof. cbn. fold n. now rewrite Nat.eqb_refl. Qed.
Lemma ts_kind q : q < n -> same_kind ((lp l).(kind_of) q) ((lp l1).(kind_of) q).
Proof.
  intros L. cbn. replace (Nat.eqb q (ln l)) with false by (symmetry; apply Nat.eqb_neq; fold n; lia).
  destruct (Nat.eqb_spec q G) as [-> | ]; [ | apply same_kind_refl]. destruct (kind_of (lp l) G); cbn; auto.
Qed.
Lemma ts_conns : (lp l1).(conns) = map (redirect o i n) (lp l).(conns) ++ [signal_conn n 0 o i].
Proof. reflexivity. Qed.

Lemma ts_other q j : q < n -> ~ (q = o /\ j = i) -> at_inlet (lp l1) q j = at_inlet (lp l) q j.
Proof.
  intros L Q. unfold at_inlet. rewrite ts_conns, filter_app, filter_map'. cbn [filter c_to c_in signal_conn].
  replace (Nat.eqb o q && Nat.eqb i j) with false.
  2: { symmetry. apply not_true_is_false. intros F. apply andb_true_iff in F as [F1 F2]. apply Nat.eqb_eq in F1. apply Nat.eqb_eq in F2. auto. }
  rewrite app_nil_r. rewrite (filter_ext_in _ (fun c => Nat.eqb (c_to c) q && Nat.eqb (c_in c) j)).
  - rewrite <- map_id. apply map_ext_in. intros c Hc. apply filter_In in Hc as [Hc F]. apply andb_true_iff in F as [F1 F2]. apply Nat.eqb_eq in F1. apply Nat.eqb_eq in F2.
    destruct (rd_case o i n c) as [(X1 & X2 & _) | [_ ->]]; [ | reflexivity]. exfalso. apply Q. split; congruence.
  - intros c Hc. destruct (rd_case o i n c) as [(X1 & X2 & _ & ->) | [_ ->]]; [ | reflexivity]. cbn [retarget c_to c_in fst snd].
    replace (Nat.eqb n q) with false by (symmetry; apply Nat.eqb_neq; lia). cbn. symmetry. apply not_true_is_false. intros F.
    apply andb_true_iff in F as [F1 F2]. apply Nat.eqb_eq in F1. apply Nat.eqb_eq in F2. apply Q. split; congruence.
Qed.
Hypothesis Hctl : forall c, In c (at_inlet (lp l) o i) -> c.(c_sig) = false.
Lemma ts_at : at_inlet (lp l1) o i = [signal_conn n 0 o i].
Proof.
  unfold at_inlet. rewrite ts_conns, filter_app, filter_map'. cbn [filter c_to c_in signal_conn]. rewrite !Nat.eqb_refl. cbn [andb].
  rewrite filter_none; [reflexivity | ]. intros c Hc. destruct (rd_case o i n c) as [(X1 & X2 & _ & ->) | [X ->]].
  - cbn. now replace (Nat.eqb n o) with false by (symmetry; apply Nat.eqb_neq; lia).
  - apply not_true_is_false. intros F. apply andb_true_iff in F as [F1 F2]. apply Nat.eqb_eq in F1. apply Nat.eqb_eq in F2.
    apply X. split; [auto | ]. split; [auto | ]. apply Hctl. apply to_o. auto.
Qed.
Lemma ts_at_n : at_inlet (lp l1) n 0 = map (fun c => retarget c (n, 0)) (at_inlet (lp l) o i).
Proof.
  unfold at_inlet. rewrite ts_conns, filter_app, filter_map'. cbn [filter c_to c_in signal_conn].
  replace (Nat.eqb o n) with false by (symmetry; apply Nat.eqb_neq; lia). cbn [andb]. rewrite app_nil_r.
  rewrite (filter_ext_in _ (fun c => Nat.eqb (c_to c) o && Nat.eqb (c_in c) i)).
  - apply map_ext_in. intros c Hc. assert (Hc' : In c (at_inlet (lp l) o i)) by exact Hc. specialize (Hctl c Hc'). apply to_o in Hc' as (_ & X1 & X2).
    destruct (rd_case o i n c) as [(_ & _ & _ & ->) | [X _]]; [reflexivity | ]. exfalso. auto.
  - intros c Hc. destruct (rd_case o i n c) as [(X1 & X2 & _ & ->) | [X ->]].
    + cbn. rewrite X1, X2. now rewrite !Nat.eqb_refl.
    + destruct (lo_conn l OK c Hc) as [_ Lc]. replace (Nat.eqb (c_to c) n) with false by (symmetry; apply Nat.eqb_neq; unfold n; lia). cbn [andb].
      symmetry. apply not_true_is_false. intros F. apply andb_true_iff in F as [F1 F2]. apply Nat.eqb_eq in F1. apply Nat.eqb_eq in F2.
      apply X. split; [auto | ]. split; [auto | ]. apply Hctl. apply to_o. auto.
Qed.

Lemma ts_ok : lang_ok l1.
Proof.
  assert (Hcase : forall q, is_lang (lt l1 q) -> q < n /\ lt l1 q = lt l q \/ q = n).
  { intros q H. destruct (Nat.lt_trichotomy q n) as [L | [L | L]]; [left; split; [exact L | now apply ts_lt] | now right | ].
    exfalso. cbn in H. replace (Nat.eqb q (ln l)) with false in H by (symmetry; apply Nat.eqb_neq; fold n; lia).
    destruct (lo_free l OK q) as [_ F]; [unfold n in L; lia | ]. rewrite F in H. destruct H. }
  assert (Hin : forall c, In c (lp l1).(conns) -> (exists c0, In c0 (lp l).(conns) /\ c = redirect o i n c0) \/ c = signal_conn n 0 o i).
  { intros c Hc. rewrite ts_conns in Hc. apply in_app_iff in Hc as [Hc | [Hc | []]]; [left | now right]. apply in_map_iff in Hc as (c0 & <- & H0). eauto. }
  split.
  - intros x Hx. cbn in Hx. destruct (lo_free l OK x) as [F1 F2]; [lia | ]. cbn.
    replace (Nat.eqb x (ln l)) with false by (symmetry; apply Nat.eqb_neq; lia). rewrite F2. split; [ | reflexivity].
    destruct (Nat.eqb_spec x G) as [<- | ]; [now rewrite F1 | exact F1].
  - intros c Hc. change (ln l1) with (S n). destruct (Hin c Hc) as [(c0 & H0 & ->) | ->]; [ | cbn; lia].
    destruct (lo_conn l OK c0 H0) as [L1 L2]. fold n in L1, L2. rewrite rd_from. destruct (rd_case o i n c0) as [(_ & _ & _ & ->) | [_ ->]]; cbn; lia.
  - intros G0 objs il ol q Eg Hq.
    assert (E0 : exists objs', kind_of (lp l) G0 = Graph objs' il ol).
    { cbn in Eg. destruct (Nat.eqb G0 (ln l)); [discriminate | ]. destruct (Nat.eqb_spec G0 G) as [-> | ]; [ | eauto].
      destruct (kind_of (lp l) G); try discriminate. injection Eg as <- <- <-. eauto. }
    destruct E0 as [objs' E0]. destruct (lo_lets l OK G0 objs' il ol q E0 Hq) as [L N]. fold n in L. split; [change (ln l1) with (S n); lia | ]. now rewrite ts_lt.
  - intros q b' a' Eq. destruct (Hcase q) as [[L Eq'] | ->]; [now rewrite Eq | | rewrite ts_lt_n in Eq; discriminate].
    rewrite Eq' in Eq. pose proof (ts_kind q L) as S. rewrite (lo_bin l OK q _ _ Eq) in S. destruct (kind_of (lp l1) q); cbn in S; try contradiction; now rewrite <- S.
  - intros q k Eq. destruct (Hcase q) as [[L Eq'] | ->]; [now rewrite Eq | | cbn; fold n; now rewrite Nat.eqb_refl].
    rewrite Eq' in Eq. pose proof (ts_kind q L) as S. rewrite (lo_var l OK q _ Eq) in S. destruct (kind_of (lp l1) q); cbn in S; try contradiction; now rewrite <- S.
  - intros q y Eq. cbn in Eq. destruct (Nat.eqb q (ln l)); [discriminate | ]. destruct (lo_read l OK q y Eq) as [k Ek]. exists k. rewrite ts_lt; [exact Ek | ].
    destruct (Nat.lt_ge_cases y n) as [ | Hge]; [assumption | ]. destruct (lo_free l OK y Hge). congruence.
  - intros c Hc H. destruct (Hin c Hc) as [(c0 & H0 & ->) | ->]; [ | split; reflexivity]. rewrite rd_from in H. rewrite rd_out, rd_sig.
    destruct (Hcase _ H) as [[L Eq] | En]; [rewrite Eq in H; now apply (lo_from l OK) | ]. destruct (lo_conn l OK c0 H0). unfold n in En. lia.
  - intros c b' a' Hc Eq. destruct (Hin c Hc) as [(c0 & H0 & ->) | ->]; [ | exact Hi].
    destruct (rd_case o i n c0) as [(_ & _ & _ & R) | [_ R]]; rewrite R in *; [cbn in Eq; fold n in Eq; rewrite Nat.eqb_refl in Eq; discriminate | ].
    apply (lo_to_bin l OK c0 b' a' H0). rewrite ts_lt in Eq; [exact Eq | apply (lo_conn l OK c0 H0)].
  - intros c k Hc Eq. destruct (Hin c Hc) as [(c0 & H0 & ->) | ->]; [ | exfalso; change (c_to (signal_conn n 0 o i)) with o in Eq; rewrite ts_lt in Eq by exact Lo; congruence].
    destruct (rd_case o i n c0) as [(_ & _ & S & R) | [_ R]]; rewrite R in *; [cbn; auto | ].
    apply (lo_to_var l OK c0 k H0). rewrite ts_lt in Eq; [exact Eq | apply (lo_conn l OK c0 H0)].
  - destruct (lo_rank l OK) as [rank R]. exists (fun q => if Nat.eqb q n then 0 else S (rank q)). intros c Hc S.
    destruct (Hin c Hc) as [(c0 & H0 & ->) | ->].
    + rewrite rd_sig in S. destruct (rd_case o i n c0) as [(_ & _ & S' & _) | [_ ->]]; [congruence | ]. specialize (R c0 H0 S). destruct (lo_conn l OK c0 H0).
      replace (Nat.eqb (c_from c0) n) with false by (symmetry; apply Nat.eqb_neq; unfold n; lia).
      replace (Nat.eqb (c_to c0) n) with false by (symmetry; apply Nat.eqb_neq; unfold n; lia). lia.
    + cbn [signal_conn c_from c_to]. rewrite Nat.eqb_refl. replace (Nat.eqb o n) with false by (symmetry; apply Nat.eqb_neq; lia). lia.
Qed.

Lemma ts_sem {A} op neg (zero : A) cst inp other trace V1 :
  (i = 1 -> a = None) -> cst kzero = zero ->
  meaning op neg zero kzero cst inp other trace l1 V1 ->
  exists V, meaning op neg zero kzero cst inp other trace l V /\
    (forall q j, q <> o -> V q j = V1 q j) /\ (forall q j, q < n -> q <> o -> Permutation (arriving l V q j) (arriving l1 V1 q j)).
Proof.
  intros Ha Hz M.
  assert (HL : is_lang (lt l o)) by now rewrite E.
  set (V := put o (V1 o 0) V1).
  assert (HV : forall c, In c (lp l).(conns) -> V (c_from c) (c_out c) = V1 (c_from c) (c_out c)).
  { intros c Hc. unfold V, put. destruct (Nat.eqb_spec (c_from c) o) as [Ef | Ef]; [ | reflexivity].
    destruct (lo_from l OK c Hc) as [-> _]; [now rewrite Ef | ]. now rewrite Ef. }
  assert (Harr : forall q j, q < n -> ~ (q = o /\ j = i) -> arriving l V q j = arriving l1 V1 q j).
  { intros q j L Q. unfold arriving. rewrite ts_other by auto. apply map_ext_in. intros c Hc. apply filter_In in Hc as [Hc _]. apply to_o in Hc as [Hc _]. now apply HV. }
  assert (Hheld : forall q j init, q < n -> ~ (q = o /\ j = i) -> held trace l1 q j init = held trace l q j init).
  { intros q j init L Q. apply held_eq. intros x y. now rewrite ts_other. }
  assert (Hn : V1 n 0 = held trace l o i (cst kzero)).
  { rewrite (mn_var _ _ _ _ _ _ _ _ _ _ M n kzero ts_lt_n). apply held_eq. intros x y. rewrite ts_at_n, existsb_map'. reflexivity. }
  exists V. split; [ | split].
  - eapply step_meaning; [exact OK | | exact HL | | | | exact M].
    + split.
      * change (ln l1) with (S n). fold n. lia.
      * intros q L _. now apply ts_lt.
      * intros q L _. now apply ts_kind.
      * intros q j init L Q. apply Hheld; [exact L | tauto].
    + intros q j L Q. fold V. rewrite Harr; [reflexivity | exact L | tauto].
    + intros b' a' E'. rewrite E in E'. injection E' as <- <-.
      destruct (mn_bin _ _ _ _ _ _ _ _ _ _ M o b a) as (x & y & T0 & T1 & Ev); [now rewrite ts_lt | ].
      exists x, y. fold V.
      assert (Hsame : forall j init z, j <> i -> takes op l1 V1 o j (held trace l1 o j init) z -> takes op l V o j (held trace l o j init) z).
      { intros j init z J. unfold takes. rewrite Harr, Hheld; [auto | exact Lo | tauto | exact Lo | tauto]. }
      assert (Hdiff : forall init z, takes op l1 V1 o i init z -> takes op l V o i (held trace l o i (cst kzero)) z).
      { intros init z. unfold takes, arriving. rewrite ts_at. rewrite (signals_no (at_inlet (lp l) o i)) by exact Hctl. cbn. intros T. apply sums_single in T. congruence. }
      assert (Ci : i = 0 \/ i = 1) by lia. destruct Ci as [Ci | Ci]; rewrite Ci in Hdiff.
      * split; [ | split; [ | exact Ev]]; [rewrite <- Hz; eapply Hdiff; exact T0 | apply Hsame; [lia | exact T1]].
      * rewrite (Ha Ci) in *. split; [ | split; [ | exact Ev]]; [apply Hsame; [lia | exact T0] | eapply Hdiff; exact T1].
    + intros k E'. congruence.
  - intros q j Q. now apply put_other.
  - intros q j L Q. rewrite Harr; [reflexivity | exact L | tauto].
Qed.
End Validate.
