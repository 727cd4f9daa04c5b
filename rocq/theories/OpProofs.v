(** Sums, and the general step: replacing one operator or var. *)
From Verif Require Import RewriteModel OpModel OpSpec.
From Coq Require Import Permutation.

Lemma sums_nonempty {A} (add : A -> A -> A) l v : sums add l v -> l <> [].
Proof.
  intros S. induction S as [v | l1 l2 l a b P S1 I1 S2 I2]; [discriminate | ].
  intros ->. apply Permutation_nil in P. apply app_eq_nil in P. tauto.
Qed.
Lemma sums_perm {A} (add : A -> A -> A) l l' v : Permutation l l' -> sums add l v -> sums add l' v.
Proof.
  intros P S. destruct S as [v | l1 l2 l a b Q S1 S2].
  - apply Permutation_length_1_inv in P. subst. constructor.
  - apply (sums_add add l1 l2); auto. now rewrite <- P.
Qed.
Lemma sums_single {A} (add : A -> A -> A) x v : sums add [x] v -> v = x.
Proof.
  intros S. inversion S as [ | l1 l2 l a b P S1 S2]; subst; [reflexivity | ].
  apply sums_nonempty in S1. apply sums_nonempty in S2. apply Permutation_length in P.
  rewrite app_length in P. destruct l1, l2; cbn in P; try congruence; lia.
Qed.
Lemma sums_fold {A} (add : A -> A -> A) vs : forall v, sums add (v :: vs) (fold_left add vs v).
Proof.
  enough (H : forall vs l v, sums add l v -> sums add (l ++ vs) (fold_left add vs v)) by (intros v; apply (H vs [v] v); constructor).
  clear vs. induction vs as [ | x vs IH]; intros l v S; cbn [fold_left]; [now rewrite app_nil_r | ].
  replace (l ++ x :: vs) with ((l ++ [x]) ++ vs) by (rewrite <- app_assoc; reflexivity). apply IH.
  apply (sums_add add l [x]); auto. constructor.
Qed.
Lemma sums_exist {A} (add : A -> A -> A) l : l <> [] -> exists v, sums add l v.
Proof. destruct l as [ | v vs]; [congruence | ]. intros _. eexists. apply sums_fold. Qed.

Definition same_kind (k k' : kind) : Prop :=
  match k, k' with
  | Graph _ il ol, Graph _ il' ol' => il = il' /\ ol = ol'
  | Graph _ _ _, _ | _, Graph _ _ _ => False
  | _, _ => k = k'
  end.
Lemma same_kind_refl k : same_kind k k.
Proof. destruct k; cbn; auto. Qed.

Section Step.
Context {A K : Type} (op : bop -> A -> A -> A) (neg : A -> A) (zero : A) (kzero : K) (cst : K -> A)
        (inp : nat -> A) (other : nat -> list A -> nat -> A) (trace : list (nat * nat * A)).
Notation meaning := (meaning op neg zero kzero cst inp other trace).
Notation takes := (takes op).
Notation held := (held trace).
Notation ir_value := (ir_value op neg zero cst other trace).

Lemma takes_perm (l : lang K) V (l1 : lang K) V1 q i open x : Permutation (arriving l V q i) (arriving l1 V1 q i) ->
  takes l1 V1 q i open x -> takes l V q i open x.
Proof.
  unfold OpSpec.takes. intros P. destruct (arriving l V q i) as [ | v vs] eqn:E.
  - apply Permutation_nil in P. now rewrite P.
  - destruct (arriving l1 V1 q i) as [ | v' vs'] eqn:E1; [symmetry in P; now apply Permutation_nil in P | ].
    intros S. eapply sums_perm; [ | exact S]. now symmetry.
Qed.
Lemma takes_some (l : lang K) V q i open open' x : arriving l V q i <> [] -> takes l V q i open x -> takes l V q i open' x.
Proof. unfold OpSpec.takes. destruct (arriving l V q i); congruence. Qed.
Lemma takes_exists (l : lang K) V q i open : exists x, takes l V q i open x.
Proof. unfold OpSpec.takes. destruct (arriving l V q i) as [ | v vs]; [eauto | ]. apply sums_exist. discriminate. Qed.

Definition put (o : nat) (v : A) (V1 : nat -> nat -> A) (q j : nat) : A := if Nat.eqb q o then v else V1 q j.
Lemma put_other o v V1 q j : q <> o -> put o v V1 q j = V1 q j.
Proof. intros H. unfold put. apply Nat.eqb_neq in H. now rewrite H. Qed.
Lemma put_same o v V1 j : put o v V1 o j = v.
Proof. unfold put. now rewrite Nat.eqb_refl. Qed.

Record kept (o : nat) (l l1 : lang K) : Prop := {
  kp_ln : ln l <= ln l1;
  kp_lt : forall q, q < ln l -> q <> o -> lt l1 q = lt l q;
  kp_kind : forall q, q < ln l -> q <> o -> same_kind ((lp l).(kind_of) q) ((lp l1).(kind_of) q);
  kp_held : forall q i init, q < ln l -> q <> o -> held l1 q i init = held l q i init }.

Lemma step_meaning o l l1 V1 v :
  lang_ok l -> kept o l l1 -> is_lang (lt l o) ->
  let V := put o v V1 in
  (forall q i, q < ln l -> q <> o -> Permutation (arriving l V q i) (arriving l1 V1 q i)) ->
  (forall b a, lt l o = LBin b a ->
     exists x y, takes l V o 0 (held l o 0 zero) x /\ takes l V o 1 (held l o 1 (cst (k_of kzero a))) y /\ v = op b x y) ->
  (forall k, lt l o = LVar k -> v = held l o 0 (cst k)) ->
  meaning l1 V1 -> meaning l V.
Proof.
  intros OK KP HL V HP HB HV M.
  assert (Hin : forall q, (lp l).(kind_of) q <> Outlet -> q < ln l).
  { intros q H. destruct (Nat.lt_ge_cases q (ln l)) as [ | Hge]; [assumption | ]. destruct (lo_free l OK q Hge). congruence. }
  assert (Hin' : forall q, is_lang (lt l q) -> q < ln l).
  { intros q H. destruct (Nat.lt_ge_cases q (ln l)) as [ | Hge]; [assumption | ]. destruct (lo_free l OK q Hge) as [_ E]. rewrite E in H. destruct H. }
  assert (HT : forall q i open x, q < ln l -> q <> o -> takes l1 V1 q i open x -> takes l V q i open x).
  { intros q i open x Q1 Q2. apply takes_perm. auto. }
  assert (HVq : forall q j, q <> o -> V q j = V1 q j) by (intros; now apply put_other).
  split.
  - intros q b a E. destruct (Nat.eq_dec q o) as [-> | Q].
    + destruct (HB b a E) as (x & y & T0 & T1 & Ev). exists x, y. split; [exact T0 | ]. split; [exact T1 | ]. unfold V. now rewrite put_same.
    + assert (L : q < ln l) by (apply Hin'; now rewrite E).
      destruct (mn_bin _ _ _ _ _ _ _ _ _ _ M q b a) as (x & y & T0 & T1 & Ev); [now rewrite (kp_lt _ _ _ KP) | ].
      rewrite (kp_held _ _ _ KP) in T0, T1 by auto. exists x, y. split; [now apply HT | ]. split; [now apply HT | ]. now rewrite HVq.
  - intros q k E. destruct (Nat.eq_dec q o) as [-> | Q].
    + unfold V. rewrite put_same. auto.
    + assert (L : q < ln l) by (apply Hin'; now rewrite E).
      rewrite HVq by exact Q. rewrite <- (kp_held _ _ _ KP) by auto. apply (mn_var _ _ _ _ _ _ _ _ _ _ M). now rewrite (kp_lt _ _ _ KP).
  - intros q t sg ins outs E Ek.
    assert (Q : q <> o) by (intros ->; rewrite E in HL; destruct HL).
    assert (L : q < ln l) by (apply Hin; congruence).
    assert (Ek1 : (lp l1).(kind_of) q = Leaf sg ins outs None).
    { pose proof (kp_kind _ _ _ KP q L Q) as S. rewrite Ek in S. destruct (kind_of (lp l1) q); cbn in S; try contradiction; now rewrite <- S. }
    assert (El1 : lt l1 q = LIr t) by (now rewrite (kp_lt _ _ _ KP)).
    destruct (mn_ir _ _ _ _ _ _ _ _ _ _ M q t sg ins outs El1 Ek1) as (xs & F & Ev).
    exists xs. split.
    + clear - F HT L Q. induction F; constructor; auto.
    + intros j. rewrite HVq by exact Q. rewrite Ev. unfold OpSpec.ir_value. rewrite E, El1.
      destruct t; try reflexivity. destruct (lo_read l OK q y E) as [k Ey].
      assert (Qy : y <> o) by (intros ->; rewrite Ey in HL; destruct HL).
      assert (Ly : y < ln l). { destruct (Nat.lt_ge_cases y (ln l)) as [ | Hge]; [assumption | ]. destruct (lo_free l OK y Hge). congruence. }
      rewrite (kp_lt _ _ _ KP) by auto. rewrite Ey. now rewrite (kp_held _ _ _ KP).
  - intros q ch E. assert (L : q < ln l) by (apply Hin; congruence).
    assert (Q : q <> o).
    { intros ->. destruct (lt l o) eqn:El; [rewrite (lo_bin l OK o _ _ El) in E | rewrite (lo_var l OK o _ El) in E | destruct HL]; discriminate. }
    rewrite HVq by exact Q. apply (mn_adc _ _ _ _ _ _ _ _ _ _ M).
    pose proof (kp_kind _ _ _ KP q L Q) as S. rewrite E in S. destruct (kind_of (lp l1) q); cbn in S; try contradiction; now rewrite <- S.
  - intros G objs il ol i q EG Hn Ek.
    assert (LG : G < ln l) by (apply Hin; congruence).
    assert (QG : G <> o).
    { intros ->. destruct (lt l o) eqn:El; [rewrite (lo_bin l OK o _ _ El) in EG | rewrite (lo_var l OK o _ El) in EG | destruct HL]; discriminate. }
    assert (L : q < ln l) by (apply Hin; congruence).
    assert (Q : q <> o).
    { intros ->. destruct (lt l o) eqn:El; [rewrite (lo_bin l OK o _ _ El) in Ek | rewrite (lo_var l OK o _ El) in Ek | destruct HL]; discriminate. }
    rewrite HVq by exact Q. apply HT; auto.
    pose proof (kp_kind _ _ _ KP G LG QG) as SG. rewrite EG in SG. destruct (kind_of (lp l1) G) as [ | | | objs1 il1 ol1] eqn:EG1; cbn in SG; try contradiction.
    destruct SG as [-> ->]. apply (mn_inlet _ _ _ _ _ _ _ _ _ _ M G objs1 il1 ol1); auto.
    pose proof (kp_kind _ _ _ KP q L Q) as S. rewrite Ek in S. destruct (kind_of (lp l1) q); cbn in S; try contradiction; now rewrite <- S.
  - intros G objs il ol j q EG Hn.
    assert (LG : G < ln l) by (apply Hin; congruence).
    assert (QG : G <> o).
    { intros ->. destruct (lt l o) eqn:El; [rewrite (lo_bin l OK o _ _ El) in EG | rewrite (lo_var l OK o _ El) in EG | destruct HL]; discriminate. }
    destruct (lo_lets l OK G objs il ol q EG) as [L NL]; [apply in_app_iff; right; eapply nth_error_In; eauto | ].
    assert (Q : q <> o) by (intros ->; auto).
    rewrite HVq by exact QG. apply HT; auto.
    pose proof (kp_kind _ _ _ KP G LG QG) as SG. rewrite EG in SG. destruct (kind_of (lp l1) G) as [ | | | objs1 il1 ol1] eqn:EG1; cbn in SG; try contradiction.
    destruct SG as [-> ->]. eapply (mn_outlet _ _ _ _ _ _ _ _ _ _ M G objs1 il1 ol1); eauto.
Qed.
End Step.
