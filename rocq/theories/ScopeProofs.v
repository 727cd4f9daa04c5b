(** Looking up names. *)
From Verif Require Import ScopeSpec ArgsProofs ParamProofs2.
From Coq Require Import String List Lia ZArith.
Import ListNotations.
Local Open Scope list_scope.
Open Scope Z_scope.

Lemma place_eqb_eq a b : place_eqb a b = true <-> a = b.
Proof. unfold place_eqb. destruct (list_eq_dec Nat.eq_dec a b); split; congruence. Qed.
Lemma kind_eqb_eq a b : kind_eqb a b = true <-> a = b.
Proof. destruct a, b; cbn; split; congruence. Qed.
Lemma in_kinds k l : existsb (kind_eqb k) l = true <-> In k l.
Proof.
  rewrite existsb_exists. split; [intros (x & I & E); apply kind_eqb_eq in E; subst; exact I | intros I; exists k; split; [exact I | apply kind_eqb_eq; reflexivity]].
Qed.
Lemma pick_spec g name kinds (x : place * named) :
  place_eqb (fst x) g && text_eqb name (n_name (snd x)) && existsb (kind_eqb (n_kind (snd x))) kinds = true <->
  fst x = g /\ n_name (snd x) = name /\ In (n_kind (snd x)) kinds.
Proof.
  rewrite !Bool.andb_true_iff, place_eqb_eq, text_eqb_eq, in_kinds. intuition congruence.
Qed.
Lemma in_objects r g name kinds o : In o (objects_for_name r g name kinds) <-> In (g, o) r /\ n_name o = name /\ In (n_kind o) kinds.
Proof.
  unfold objects_for_name. rewrite in_map_iff. split.
  - intros ([a p] & E & I). cbn in E. subst p. apply filter_In in I as [I P]. apply pick_spec in P as (P1 & P2 & P3). cbn in *. subst. auto.
  - intros (I & N & K). exists (g, o). split; [reflexivity |]. apply filter_In. split; [exact I |]. apply pick_spec. auto.
Qed.
Lemma in_resolve r name kinds local o : forall g, In o (resolve_from r name kinds local g) <->
  exists a, In (a, o) r /\ within g a /\ n_name o = name /\ In (n_kind o) kinds /\ (n_scope o = Private -> n_graph o = local).
Proof.
  assert (F : forall g, In o (filter (fun o => negb (match n_scope o with Private => negb (place_eqb (n_graph o) local) | _ => false end)) (objects_for_name r g name kinds)) <->
    In (g, o) r /\ n_name o = name /\ In (n_kind o) kinds /\ (n_scope o = Private -> n_graph o = local)).
  { intros g. rewrite filter_In, in_objects. destruct (n_scope o) eqn:E; cbn [negb].
    - rewrite Bool.negb_involutive, place_eqb_eq. intuition.
    - intuition congruence.
    - intuition congruence. }
  induction g as [| i g IH]; cbn [resolve_from]; rewrite in_app_iff, F.
  - cbn [In]. split.
    + intros [(I & N & K & P) | []]. exists []. split; [exact I |]. split; [exists []; reflexivity |]. auto.
    + intros (a & I & [s Hs] & N & K & P). symmetry in Hs. apply app_eq_nil in Hs as [_ ->]. left. auto.
  - rewrite IH. split.
    + intros [(I & N & K & P) | (a & I & [s ->] & N & K & P)].
      * exists (i :: g). split; [exact I |]. split; [exists []; reflexivity |]. auto.
      * exists a. split; [exact I |]. split; [exists (i :: s); reflexivity |]. auto.
    + intros (a & I & [[| j s] Hs] & N & K & P); cbn in Hs.
      * left. subst a. auto.
      * right. inversion Hs. subst. exists a. split; [exact I |]. split; [exists s; reflexivity |]. auto.
Qed.
(** ** Order *)
Lemma filter_before {A} f (l : list A) x y : before (filter f l) x y -> before l x y.
Proof.
  intros (i & j & L & X & Y). revert i j L X Y. induction l as [| z l IH]; intros i j L X Y; [destruct i; discriminate X |]. cbn [filter] in X, Y.
  destruct (f z).
  - destruct i, j; cbn in X, Y; try lia.
    + inversion X. subst. apply nth_error_In in Y. apply filter_In in Y as [Y _]. apply In_nth_error in Y as [k Y]. exists O, (S k). split; [lia |]. auto.
    + destruct (IH i j ltac:(lia) X Y) as (p & q & L' & X' & Y'). exists (S p), (S q). split; [lia |]. auto.
  - destruct (IH i j L X Y) as (p & q & L' & X' & Y'). exists (S p), (S q). split; [lia |]. auto.
Qed.
Lemma map_before {A B} (f : A -> B) l x y : before (map f l) x y -> exists a b, before l a b /\ f a = x /\ f b = y.
Proof.
  intros (i & j & L & X & Y). rewrite nth_error_map in X, Y. destruct (nth_error l i) as [a |] eqn:Ea, (nth_error l j) as [b |] eqn:Eb; try discriminate.
  cbn in X, Y. inversion X. inversion Y. exists a, b. split; [exists i, j; auto | auto].
Qed.
Lemma before_map {A B} (f : A -> B) l a b : before l a b -> before (map f l) (f a) (f b).
Proof. intros (i & j & L & X & Y). exists i, j. split; [exact L |]. rewrite !nth_error_map, X, Y. auto. Qed.
Lemma before_in {A} (l : list A) x y : before l x y -> In x l /\ In y l.
Proof. intros (i & j & _ & X & Y). split; eapply nth_error_In; eauto. Qed.
Lemma app_before {A} (l m : list A) x y : before (l ++ m) x y -> before l x y \/ before m x y \/ In x l /\ In y m.
Proof.
  intros (i & j & L & X & Y). destruct (Nat.lt_ge_cases j (length l)).
  - rewrite nth_error_app1 in X, Y by lia. left. exists i, j. auto.
  - rewrite nth_error_app2 in Y by lia. destruct (Nat.lt_ge_cases i (length l)).
    + rewrite nth_error_app1 in X by lia. right. right. split; eapply nth_error_In; eauto.
    + rewrite nth_error_app2 in X by lia. right. left. exists (i - length l)%nat, (j - length l)%nat. split; [lia |]. auto.
Qed.
Definition at_home (r : registry) : Prop := forall a o, In (a, o) r -> a = home o.
Lemma within_length g a : within g a -> (length a <= length g)%nat.
Proof. intros [s ->]. rewrite app_length. lia. Qed.
Lemma resolve_order r name kinds local o p : at_home r -> forall g, before (resolve_from r name kinds local g) o p ->
  (length (home p) < length (home o))%nat \/ home o = home p /\ before (map snd r) o p.
Proof.
  intros H. induction g as [| i g IH]; cbn [resolve_from]; intros B.
  - rewrite app_nil_r in B. right. apply filter_before in B. unfold objects_for_name in B. apply map_before in B as ([a o'] & [b p'] & B & E1 & E2). cbn in E1, E2. subst.
    assert (In2 := before_in _ _ _ B). destruct In2 as [I1 I2]. apply filter_In in I1 as [I1 P1]. apply filter_In in I2 as [I2 P2].
    apply pick_spec in P1 as (P1 & _). apply pick_spec in P2 as (P2 & _). cbn in P1, P2. subst. split; [rewrite <- (H _ _ I1), <- (H _ _ I2); reflexivity |].
    apply filter_before in B. exact (before_map snd _ _ _ B).
  - apply app_before in B as [B | [B | [Io Ip]]].
    + right. apply filter_before in B. unfold objects_for_name in B. apply map_before in B as ([a o'] & [b p'] & B & E1 & E2). cbn in E1, E2. subst.
      assert (In2 := before_in _ _ _ B). destruct In2 as [I1 I2]. apply filter_In in I1 as [I1 P1]. apply filter_In in I2 as [I2 P2].
      apply pick_spec in P1 as (P1 & _). apply pick_spec in P2 as (P2 & _). cbn in P1, P2. subst. split; [rewrite <- (H _ _ I1), <- (H _ _ I2); reflexivity |].
      apply filter_before in B. exact (before_map snd _ _ _ B).
    + apply IH, B.
    + left. apply filter_In in Io as [Io _]. apply in_objects in Io as [Io _]. apply in_resolve in Ip as (a & Ip & W & _).
      rewrite <- (H _ _ Io), <- (H _ _ Ip). apply within_length in W. cbn. lia.
Qed.
Lemma add_at_home r o r' : at_home r -> add_object r o = Some r' -> at_home r'.
Proof.
  unfold add_object, register. intros H E.
  assert (A : at_home (r ++ [(home o, o)])).
  { intros a p I. apply in_app_or in I as [I | [I | []]]; [exact (H a p I) | congruence]. }
  destruct (objects_for_name r (home o) (n_name o) [n_kind o]); [injection E as <-; exact A |]. destruct (is_table (n_kind o)); [discriminate E | injection E as <-; exact A].
Qed.
Lemma adds_at_home l : forall r r', at_home r -> add_objects r l = Some r' -> at_home r'.
Proof.
  induction l as [| o l IH]; intros r r' H E; cbn [add_objects] in E; [injection E as <-; exact H |]. destruct (add_object r o) as [r1 |] eqn:E1; [| discriminate]. exact (IH r1 r' (add_at_home r o r1 H E1) E).
Qed.
(** ** Tables *)
Definition at_root (ts : list named) : registry := map (fun t => ([], t)) ts.
Definition own (ts : list named) : registry := map (fun t => (n_graph t, reduced_table t)) ts.
Lemma in_at_root a o ts : In (a, o) (at_root ts) <-> a = [] /\ In o ts.
Proof. unfold at_root. rewrite in_map_iff. split; [intros (t & E & I); inversion E; subst; auto | intros [-> I]; exists o; auto]. Qed.
Lemma in_own a o ts : In (a, o) (own ts) <-> exists t, In t ts /\ a = n_graph t /\ o = reduced_table t.
Proof. unfold own. rewrite in_map_iff. split; [intros (t & E & I); inversion E; subst; eauto | intros (t & I & -> & ->); eauto]. Qed.
Lemma add_table ts t : (forall u, In u ts -> pd_table u) -> pd_table t ->
  add_object (at_root ts) t = if existsb (text_eqb (n_name t)) (map n_name ts) then None else Some (at_root (ts ++ [t])).
Proof.
  intros H [K S]. unfold add_object, register, home. rewrite S, K. cbn [is_table].
  destruct (existsb (text_eqb (n_name t)) (map n_name ts)) eqn:E.
  - apply existsb_text in E. apply in_map_iff in E as (u & N & I). assert (J : In u (objects_for_name (at_root ts) [] (n_name t) [KTable])).
    { apply in_objects. split; [apply in_at_root; auto |]. split; [exact N |]. left. symmetry. apply (H u I). }
    destruct (objects_for_name (at_root ts) [] (n_name t) [KTable]); [destruct J | reflexivity].
  - destruct (objects_for_name (at_root ts) [] (n_name t) [KTable]) as [| u l] eqn:El.
    + unfold at_root. rewrite map_app. reflexivity.
    + exfalso. assert (J : In u (objects_for_name (at_root ts) [] (n_name t) [KTable])) by (rewrite El; left; reflexivity).
      apply in_objects in J as (J & N & _). apply in_at_root in J as [_ J]. apply (in_map n_name) in J. rewrite N in J. apply existsb_text in J. congruence.
Qed.
Lemma NoDup_last {A} (l : list A) x : NoDup (l ++ [x]) <-> NoDup l /\ ~ In x l.
Proof.
  split.
  - intros N. apply NoDup_remove in N. rewrite app_nil_r in N. exact N.
  - intros [N I]. induction N as [| y l H N IH]; cbn; [constructor; [intros [] | constructor] |]. constructor.
    + intros J. apply in_app_or in J as [J | [J | []]]; [contradiction | subst; apply I; left; reflexivity].
    + apply IH. intros J. apply I. right. exact J.
Qed.
Lemma load_tables ts : forall pre, (forall u, In u (pre ++ ts) -> pd_table u) -> NoDup (map n_name pre) ->
  (NoDup (map n_name (pre ++ ts)) -> add_objects (at_root pre) ts = Some (at_root (pre ++ ts))) /\
  (~ NoDup (map n_name (pre ++ ts)) -> add_objects (at_root pre) ts = None).
Proof.
  induction ts as [| t ts IH]; intros pre H N; cbn [add_objects].
  - rewrite app_nil_r. split; [reflexivity | contradiction].
  - rewrite add_table; [| intros u I; apply H, in_or_app; left; exact I | apply H, in_or_app; right; left; reflexivity].
    replace (pre ++ t :: ts) with ((pre ++ [t]) ++ ts) in * by (rewrite <- app_assoc; reflexivity).
    destruct (existsb (text_eqb (n_name t)) (map n_name pre)) eqn:E.
    + apply existsb_text in E. split; [| reflexivity]. intros D. exfalso. rewrite map_app, map_app in D. cbn [map] in D. rewrite <- app_assoc in D. cbn [app] in D. apply NoDup_remove_2 in D.
      apply D, in_or_app. left. exact E.
    + apply IH; [exact H |]. rewrite map_app. cbn [map]. apply NoDup_last. split; [exact N |]. intros I. apply existsb_text in I. congruence.
Qed.
Lemma reduce_one ts done t : NoDup (map n_name ts) -> (forall u, In u ts -> pd_table u) -> (forall u, In u done -> In u ts) -> In t ts -> ~ In t done ->
  reduce_table (at_root ts ++ own done) t = Some (at_root ts ++ own (done ++ [t])).
Proof.
  intros N P D It Id. unfold reduce_table, add_object, register. cbn [reduced_table n_kind is_table n_name home n_scope n_graph].
  destruct (objects_for_name (at_root ts ++ own done) (n_graph t) (n_name t) [KTableIr]) as [| u l] eqn:El.
  - unfold own. rewrite map_app, app_assoc. reflexivity.
  - exfalso. assert (J : In u (objects_for_name (at_root ts ++ own done) (n_graph t) (n_name t) [KTableIr])) by (rewrite El; left; reflexivity).
    apply in_objects in J as (J & Nu & K). destruct K as [K | []]. apply in_app_or in J as [J | J].
    + apply in_at_root in J as [_ J]. destruct (P u J) as [K' _]. congruence.
    + apply in_own in J as (v & Iv & _ & ->). cbn in Nu. assert (v = t); [| subst; contradiction].
      clear - N D It Iv Nu. specialize (D v Iv). clear Iv done. induction ts as [| x ts IH]; [destruct It |]. cbn in N. inversion N as [| ? ? H1 H2]. subst.
      destruct It as [-> | It], D as [-> | D]; auto.
      * exfalso. apply H1. rewrite <- Nu. apply in_map, D.
      * exfalso. apply H1. rewrite Nu. apply in_map, It.
Qed.
Lemma reduce_all ts l : forall done, NoDup (map n_name ts) -> (forall u, In u ts -> pd_table u) -> (forall u, In u (done ++ l) -> In u ts) -> NoDup (done ++ l) ->
  reduce_tables (at_root ts ++ own done) l = Some (at_root ts ++ own (done ++ l)).
Proof.
  induction l as [| t l IH]; intros done N P D U; cbn [reduce_tables]; [rewrite app_nil_r; reflexivity |].
  rewrite reduce_one; [| exact N | exact P | intros u I; apply D, in_or_app; left; exact I | apply D, in_or_app; right; left; reflexivity |].
  - replace (done ++ t :: l) with ((done ++ [t]) ++ l) in * by (rewrite <- app_assoc; reflexivity). apply IH; assumption.
  - apply NoDup_remove_2 in U. intros I. apply U, in_or_app. left. exact I.
Qed.
Lemma same_name ts t u : NoDup (map n_name ts) -> In t ts -> In u ts -> n_name t = n_name u -> t = u.
Proof.
  intros N. induction ts as [| x ts IH]; [intros [] |]. cbn in N. inversion N as [| ? ? H1 H2]. subst. intros [-> | It] [-> | Iu] E; auto.
  - exfalso. apply H1. rewrite E. apply in_map, Iu.
  - exfalso. apply H1. rewrite <- E. apply in_map, It.
Qed.
Lemma refers ts done name g : NoDup (map n_name ts) -> (forall u, In u ts -> pd_table u) -> (forall u, In u done -> In u ts) ->
  (forall t, In t ts -> n_name t = name -> table_of (at_root ts ++ own done) name g = Some (n_id t)) /\
  (~ In name (map n_name ts) -> table_of (at_root ts ++ own done) name g = None).
Proof.
  intros N P D. unfold table_of, resolve_object, resolve_objects.
  assert (A : forall o, In o (resolve_from (at_root ts ++ own done) name [KTable; KTableIr] g g) -> exists t, In t ts /\ n_name t = name /\ n_id o = n_id t).
  { intros o I. apply in_resolve in I as (a & I & _ & Nm & _). apply in_app_or in I as [I | I].
    - apply in_at_root in I as [_ I]. eauto.
    - apply in_own in I as (t & I & _ & ->). exists t. split; [apply D, I |]. auto. }
  split.
  - intros t It Nt. assert (V : In t (resolve_from (at_root ts ++ own done) name [KTable; KTableIr] g g)).
    { apply in_resolve. exists []. destruct (P t It) as [K S]. split; [apply in_or_app; left; apply in_at_root; auto |]. split; [exists g; symmetry; apply app_nil_r |].
      split; [exact Nt |]. split; [left; symmetry; exact K | congruence]. }
    destruct (resolve_from (at_root ts ++ own done) name [KTable; KTableIr] g g) as [| o l]; [destruct V |]. cbn. f_equal.
    destruct (A o (or_introl eq_refl)) as (u & Iu & Nu & E). rewrite E. rewrite (same_name ts t u N It Iu); congruence.
  - intros I. destruct (resolve_from (at_root ts ++ own done) name [KTable; KTableIr] g g) as [| o l]; [reflexivity |]. exfalso.
    destruct (A o (or_introl eq_refl)) as (u & Iu & Nu & E). apply I. rewrite <- Nu. apply in_map, Iu.
Qed.
