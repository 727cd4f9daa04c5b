(** The dictionary of tables. *)
From Verif Require Import ScopeSpec ArgsProofs ParamProofs2 ScopeProofs.
From Coq Require Import String List Lia ZArith.
Import ListNotations.
Local Open Scope list_scope.
Open Scope Z_scope.

Definition good_pairs (ts : list named) (d : list (text * named)) : Prop := forall k v, In (k, v) d -> exists t, In t ts /\ n_name t = k /\ n_id v = n_id t.
Lemma keys_text k d : existsb (fun y : text * named => text_eqb k (fst y)) d = true <-> In k (map fst d).
Proof.
  rewrite existsb_exists, in_map_iff. split; [intros (y & I & E); apply text_eqb_eq in E; exists y; auto | intros (y & E & I); exists y; split; [exact I |]; subst; apply text_eqb_refl].
Qed.
Lemma firsts_spec k r ts : (forall a o, In (a, o) r -> exists t, In t ts /\ n_name t = n_name o /\ n_id o = n_id t) ->
  NoDup (map fst (firsts r k)) /\ good_pairs ts (firsts r k) /\ forall o, In ([], o) r -> n_kind o = k -> In (n_name o) (map fst (firsts r k)).
Proof.
  intros H. unfold firsts.
  set (f := fun (d : list (text * named)) (x : place * named) => if place_eqb (fst x) [] && kind_eqb (n_kind (snd x)) k
      then if existsb (fun y => text_eqb (n_name (snd x)) (fst y)) d then d else d ++ [(n_name (snd x), snd x)] else d).
  assert (G : forall r d, (forall a o, In (a, o) r -> exists t, In t ts /\ n_name t = n_name o /\ n_id o = n_id t) -> NoDup (map fst d) -> good_pairs ts d ->
    NoDup (map fst (fold_left f r d)) /\ good_pairs ts (fold_left f r d) /\ (forall n, In n (map fst d) -> In n (map fst (fold_left f r d))) /\
    forall o, In ([], o) r -> n_kind o = k -> In (n_name o) (map fst (fold_left f r d))).
  { clear. induction r as [| [a o] r IH]; intros d H N G; cbn [fold_left]; [split; [exact N |]; split; [exact G |]; split; [auto | intros o []] |].
    assert (S : NoDup (map fst (f d (a, o))) /\ good_pairs ts (f d (a, o)) /\ (forall n, In n (map fst d) -> In n (map fst (f d (a, o)))) /\
      (a = [] -> n_kind o = k -> In (n_name o) (map fst (f d (a, o))))).
    { unfold f. cbn [fst snd]. destruct (place_eqb a [] && kind_eqb (n_kind o) k) eqn:E.
      - destruct (existsb (fun y => text_eqb (n_name o) (fst y)) d) eqn:X.
        + apply keys_text in X. auto 6.
        + assert (X' : ~ In (n_name o) (map fst d)) by (intros J; apply keys_text in J; exact (Bool.eq_true_false_abs _ J X)). rewrite map_app. cbn [map fst].
          split; [apply NoDup_last; auto |]. split; [| split; [intros n J; apply in_or_app; left; exact J | intros _ _; apply in_or_app; right; left; reflexivity]].
          intros k' v J. apply in_app_or in J as [J | [J | []]]; [apply G, J |]. inversion J. subst. apply (H a v). left. reflexivity.
      - split; [exact N |]. split; [exact G |]. split; [auto |]. intros -> K. exfalso. apply Bool.andb_false_iff in E as [E | E]; [discriminate E |]. rewrite (proj2 (kind_eqb_eq (n_kind o) k) K) in E. discriminate E. }
    destruct S as (S1 & S2 & S3 & S4). destruct (IH (f d (a, o)) ltac:(intros b p J; apply (H b p); right; exact J) S1 S2) as (R1 & R2 & R3 & R4).
    split; [exact R1 |]. split; [exact R2 |]. split; [auto |]. intros p [J | J] K; [injection J as -> ->; apply R3, S4; [reflexivity | exact K] | auto]. }
  destruct (G r [] H (NoDup_nil _) ltac:(intros ? ? [])) as (A & B & _ & C). auto.
Qed.
Lemma dict_set_keys {V} k (v : V) d : (forall n, In n (map fst (dict_set k v d)) <-> n = k \/ In n (map fst d)) /\ (NoDup (map fst d) -> NoDup (map fst (dict_set k v d))) /\
  forall k' v', In (k', v') (dict_set k v d) -> (k', v') = (k, v) \/ In (k', v') d.
Proof.
  induction d as [| [k1 v1] d (A & B & C)]; cbn [dict_set].
  - cbn. split; [intros n; intuition |]. split; [intros _; constructor; [intros [] | constructor] | intros k' v' [E | []]; auto].
  - destruct (text_eqb_spec k k1) as [<- | Ne].
    + cbn [map fst In]. split; [intros n; intuition |]. split; [auto |]. intros k' v' [E | I]; auto.
    + cbn [map fst In]. split; [intros n; rewrite A; intuition |]. split.
      * intros N. inversion N as [| ? ? H1 H2]. subst. constructor; [rewrite A; intros [E | E]; [congruence | contradiction] | apply B, H2].
      * intros k' v' [E | I]; [auto |]. destruct (C k' v' I); auto.
Qed.
Lemma update_spec ts : forall kvs d, good_pairs ts kvs -> good_pairs ts d -> NoDup (map fst d) ->
  let e := fold_left (fun d x => dict_set (fst x) (snd x) d) kvs d in
  NoDup (map fst e) /\ good_pairs ts e /\ forall n, In n (map fst e) <-> In n (map fst kvs) \/ In n (map fst d).
Proof.
  induction kvs as [| [k v] kvs IH]; intros d Gk Gd N; cbn [fold_left fst snd].
  - cbn. split; [exact N |]. split; [exact Gd |]. intuition.
  - destruct (dict_set_keys k v d) as (A & B & C). destruct (IH (dict_set k v d)) as (R1 & R2 & R3); [| | apply B, N |].
    + intros k' v' I. apply Gk. right. exact I.
    + intros k' v' I. destruct (C k' v' I) as [E | I']; [inversion E; subst; apply Gk; left; reflexivity | apply Gd, I'].
    + split; [exact R1 |]. split; [exact R2 |]. intros n. rewrite R3, A. cbn [map fst In]. intuition.
Qed.
Lemma escaped d : forall e : list (text * Z), NoDup (map fst e ++ map (fun x : text * named => escape (fst x)) d) ->
  fold_left (fun e x => if existsb (fun y => text_eqb (escape (fst x)) (fst y)) e then e else e ++ [(escape (fst x), n_id (snd x))]) d e =
  e ++ map (fun x => (escape (fst x), n_id (snd x))) d.
Proof.
  induction d as [| x d IH]; intros e N; cbn [fold_left map]; [symmetry; apply app_nil_r |]. cbn [map] in N.
  replace (existsb (fun y => text_eqb (escape (fst x)) (fst y)) e) with false.
  - rewrite IH; [rewrite <- app_assoc; reflexivity |]. rewrite map_app. cbn [map fst]. rewrite <- app_assoc. exact N.
  - symmetry. apply Bool.not_true_is_false. intros E. apply existsb_exists in E as (y & I & E). apply text_eqb_eq in E. apply NoDup_remove_2 in N. apply N, in_or_app. left.
    rewrite E. apply in_map, I.
Qed.
Lemma dict_complete ts done : NoDup (map n_name ts) -> (forall u, In u ts -> pd_table u) -> (forall u, In u done -> In u ts) ->
  (forall t u, In t ts -> In u ts -> escape (n_name t) = escape (n_name u) -> n_name t = n_name u) ->
  let e := table_dict (at_root ts ++ own done) in
  NoDup (map fst e) /\ forall k i, In (k, i) e <-> exists t, In t ts /\ k = escape (n_name t) /\ i = n_id t.
Proof.
  intros N P D Inj. set (r := at_root ts ++ own done).
  assert (H : forall a o, In (a, o) r -> exists t, In t ts /\ n_name t = n_name o /\ n_id o = n_id t).
  { intros a o I. apply in_app_or in I as [I | I]; [apply in_at_root in I as [_ I]; eauto |]. apply in_own in I as (t & I & _ & ->). exists t. cbn. auto. }
  destruct (firsts_spec KTable r ts H) as (A1 & A2 & A3). destruct (firsts_spec KTableIr r ts H) as (B1 & B2 & B3).
  destruct (update_spec ts (firsts r KTable) (firsts r KTableIr) A2 B2 B1) as (C1 & C2 & C3). unfold table_dict.
  set (d := fold_left (fun d x => dict_set (fst x) (snd x) d) (firsts r KTable) (firsts r KTableIr)) in *. cbn zeta in *.
  assert (Inj' : forall x y, In x (map fst d) -> In y (map fst d) -> escape x = escape y -> x = y).
  { intros x y Ix Iy E. apply in_map_iff in Ix as ([kx vx] & <- & Ix). apply in_map_iff in Iy as ([ky vy] & <- & Iy). cbn [fst] in *.
    destruct (C2 _ _ Ix) as (t & It & <- & _). destruct (C2 _ _ Iy) as (u & Iu & <- & _). apply Inj; assumption. }
  assert (U : NoDup (map (fun x : text * named => escape (fst x)) d)).
  { rewrite <- (map_map fst escape). clear - C1 Inj'. induction (map fst d) as [| x l IH]; [constructor |]. inversion C1 as [| ? ? H1 H2]. subst. cbn [map]. constructor.
    - intros I. apply in_map_iff in I as (y & E & I). assert (y = x) by (apply Inj'; [right; exact I | left; reflexivity | exact E]). subst. contradiction.
    - apply IH; [exact H2 |]. intros a b Ia Ib. apply Inj'; right; assumption. }
  rewrite escaped by exact U. cbn [app]. split; [rewrite map_map; exact U |]. intros k i. rewrite in_map_iff. split.
  - intros ([k' v] & E & I). cbn [fst snd] in E. inversion E. subst. destruct (C2 _ _ I) as (t & It & <- & Ei). exists t. auto.
  - intros (t & It & -> & ->). destruct (P t It) as [K _]. assert (I : In (n_name t) (map fst d)).
    { apply C3. left. apply A3; [| exact K]. apply in_or_app. left. apply in_at_root. auto. }
    apply in_map_iff in I as ([k' v] & E & I). cbn [fst] in E. subst k'. exists (n_name t, v). split; [| exact I]. cbn [fst snd]. f_equal.
    destruct (C2 _ _ I) as (u & Iu & Nu & Ei). rewrite Ei. f_equal. symmetry. apply (same_name ts t u N It Iu). congruence.
Qed.
