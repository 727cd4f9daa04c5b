(** Proofs about the arguments of receivers and about getParameterInfo. *)
From Verif Require Import ParamSpec ArgsProofs.
From Coq Require Import String List Lia ZArith Permutation Sorted.
Import ListNotations.
Local Open Scope list_scope.
Open Scope Z_scope.

Lemma existsb_text a l : existsb (text_eqb a) l = true <-> In a l.
Proof.
  rewrite existsb_exists. split.
  - intros (x & I & E). apply text_eqb_eq in E. subst. exact I.
  - intros I. exists a. split; [exact I | apply text_eqb_refl].
Qed.
Lemma no_raw args : ~ mentions_raw args -> existsb (text_eqb (T "@raw")) args || existsb (text_eqb (T "@owl")) args = false.
Proof.
  intros H. destruct (existsb (text_eqb (T "@raw")) args) eqn:E1; [apply existsb_text in E1; destruct H; left; exact E1 |].
  destruct (existsb (text_eqb (T "@owl")) args) eqn:E2; [apply existsb_text in E2; destruct H; right; exact E2 | reflexivity].
Qed.
Lemma box_limits fl order args : ~ mentions_raw args -> b_ext (receive_box fl order args) = Some Param ->
  exists a, b_attrs (receive_box fl order args) = Some a /\ in_limits (a_min a) (a_max a) (a_default a) /\ b_errors (receive_box fl order args) = O.
Proof.
  intros H. unfold receive_box. rewrite (no_raw args H).
  set (e := match nth_error args 1 with Some s => _ | None => None end). destruct e as [[|] |]; cbn [b_ext b_attrs b_errors]; [| discriminate | discriminate].
  set (a := hv_param_attrs fl args). destruct (Bleb (a_min a) (a_default a)) eqn:E1, (Bleb (a_default a) (a_max a)) eqn:E2; cbn [negb orb]; try discriminate.
  intros _. exists a. split; [reflexivity |]. split; [split; assumption | reflexivity].
Qed.
Lemma box_given fl order name lo hi d rest x y z : fl lo = Some x -> fl hi = Some y -> fl d = Some z ->
  let args := name :: T "@hv_param" :: lo :: hi :: d :: rest in ~ mentions_raw args ->
  let b := receive_box fl order args in
  b_name b = name /\
  (in_limits x y z -> b_ext b = Some Param /\ b_errors b = O /\
     b_attrs b = Some (mkAttrs x y z (Some (match rest with t :: _ => t | [] => T "float" end)) None)) /\
  (~ in_limits x y z -> b_ext b = None /\ b_errors b <> O).
Proof.
  intros E1 E2 E3 args H b. unfold b, receive_box. rewrite (no_raw args H). unfold args. cbn [nth_error]. rewrite text_eqb_refl.
  unfold hv_param_attrs. cbn [nth_error]. rewrite E1, E2, E3. cbn [a_min a_max a_default b_ext b_errors b_attrs b_name].
  split; [reflexivity |]. unfold in_limits. split.
  - intros [A B]. rewrite A, B. cbn. split; [reflexivity |]. split; [reflexivity |]. destruct rest; reflexivity.
  - intros N. destruct (Bleb x z) eqn:A, (Bleb z y) eqn:B; cbn; try (split; [reflexivity | discriminate]). destruct N. split; reflexivity.
Qed.
Lemma box_sound fl order args : sound_box (receive_box fl order args).
Proof.
  unfold sound_box, receive_box. set (e := match nth_error args 1 with Some s => _ | None => None end).
  destruct (existsb (text_eqb (T "@raw")) args || existsb (text_eqb (T "@owl")) args); [destruct (raw_attrs fl order args) as [[[[lo hi] d] w] |] |]; destruct e as [[|] |]; cbn; discriminate.
Qed.
(** ** One word *)
Lemma raw_round_skip fl args w r : ~ In w args -> raw_round fl args w r = r.
Proof.
  intros H. unfold raw_round. destruct r as [r |]; [| reflexivity]. replace (index_of w args) with (@None nat); [reflexivity |].
  symmetry. induction args as [| a args IH]; [reflexivity |]. cbn. destruct (text_eqb_spec w a); [subst; destruct H; left; reflexivity |].
  rewrite IH; [reflexivity |]. intros I. apply H. right. exact I.
Qed.
Lemma fold_one fl args w : forall order r, NoDup order -> In w order -> (forall u, In u order -> In u args -> u = w) ->
  fold_left (fun r w => raw_round fl args w r) order r = raw_round fl args w r.
Proof.
  assert (Skip : forall order r, (forall u, In u order -> ~ In u args) -> fold_left (fun r w => raw_round fl args w r) order r = r).
  { induction order as [| u order IH]; intros r H; [reflexivity |]. cbn [fold_left]. rewrite raw_round_skip by (apply H; left; reflexivity). apply IH. intros x Hx. apply H. right. exact Hx. }
  induction order as [| u order IH]; intros r N I H; [destruct I |]. inversion N as [| ? ? N1 N2]. subst. cbn [fold_left]. destruct I as [-> | I].
  - apply Skip. intros x Hx Ix. assert (x = w) by (apply H; [right; exact Hx | exact Ix]). subst. contradiction.
  - rewrite (raw_round_skip fl args u); [apply IH; [exact N2 | exact I |]; intros x Hx; apply H; right; exact Hx |].
    intros Iu. assert (u = w) by (apply H; [left; reflexivity | exact Iu]). subst. contradiction.
Qed.
(** ** Dictionaries and sorting *)
Lemma first_uses_spec l : NoDup (first_uses l) /\ forall a, In a (first_uses l) <-> In a l.
Proof.
  induction l as [| a l [N H]]; cbn [first_uses]; [split; [constructor | tauto] |]. split.
  - constructor; [| apply NoDup_filter, N]. intros I. apply filter_In in I as [_ I]. rewrite text_eqb_refl in I. discriminate I.
  - intros b. cbn [In]. rewrite filter_In, H. destruct (text_eqb_spec a b); [subst; tauto |]. cbn [negb]. tauto.
Qed.
Lemma dict_set_new {V} k (v : V) d : ~ In k (map fst d) -> dict_set k v d = d ++ [(k, v)].
Proof.
  induction d as [| [k' v'] d IH]; intros H; [reflexivity |]. cbn [dict_set map app fst In] in *. destruct (text_eqb_spec k k'); [subst; tauto |]. rewrite IH by tauto. reflexivity.
Qed.
Lemma dict_all rs : forall d, NoDup (map fst d ++ map (fun r => escape (v_name r)) rs) ->
  fold_left (fun d r => dict_set (escape (v_name r)) r d) rs d = d ++ map (fun r => (escape (v_name r), r)) rs.
Proof.
  induction rs as [| r rs IH]; intros d N; cbn [fold_left map]; [symmetry; apply app_nil_r |].
  cbn [map] in N. rewrite dict_set_new.
  - rewrite IH; [rewrite <- app_assoc; reflexivity |]. rewrite map_app. cbn [map fst]. rewrite <- app_assoc. exact N.
  - apply NoDup_remove_2 in N. intros I. apply N, in_or_app. left. exact I.
Qed.
Lemma insert_perm {V} (x : text * V) l : Permutation (insert x l) (x :: l).
Proof. induction l as [| y l IH]; cbn [insert]; [reflexivity |]. destruct (text_leb (fst x) (fst y)); [reflexivity |]. rewrite IH. apply perm_swap. Qed.
Lemma sort_perm {V} (l : list (text * V)) : Permutation (sort_keys l) l.
Proof. induction l as [| x l IH]; cbn [sort_keys fold_right]; [reflexivity |]. rewrite insert_perm. constructor. exact IH. Qed.
Lemma text_leb_total a : forall b, text_leb a b = true \/ text_leb b a = true.
Proof.
  induction a as [| x a IH]; intros [| y b]; cbn [text_leb]; auto. destruct (Z.ltb_spec x y), (Z.ltb_spec y x), (Z.eqb_spec x y), (Z.eqb_spec y x); cbn [orb andb]; auto; lia.
Qed.
Lemma text_leb_trans a : forall b c, text_leb a b = true -> text_leb b c = true -> text_leb a c = true.
Proof.
  induction a as [| x a IH]; intros [| y b] [| z c]; cbn [text_leb]; auto; try discriminate.
  destruct (Z.ltb_spec x y), (Z.ltb_spec y z), (Z.ltb_spec x z), (Z.eqb_spec x y), (Z.eqb_spec y z), (Z.eqb_spec x z); cbn [orb andb]; auto; try discriminate; try lia. intros A B. eapply IH; eauto.
Qed.
Definition key_le {V} (x y : text * V) : Prop := text_leb (fst x) (fst y) = true.
Lemma insert_sorted {V} (x : text * V) l : StronglySorted key_le l -> StronglySorted key_le (insert x l).
Proof.
  induction l as [| y l IH]; intros H; cbn [insert]; [constructor; [constructor | constructor] |]. inversion H as [| ? ? H1 H2]. subst.
  destruct (text_leb (fst x) (fst y)) eqn:E.
  - constructor; [exact H |]. constructor; [exact E |]. eapply Forall_impl; [| exact H2]. intros z Hz. unfold key_le in *. eapply text_leb_trans; eauto.
  - constructor; [apply IH, H1 |]. assert (Y : text_leb (fst y) (fst x) = true) by (destruct (text_leb_total (fst x) (fst y)); congruence).
    apply Forall_forall. intros z Hz. apply (Permutation_in z (insert_perm x l)) in Hz. destruct Hz as [<- | Hz]; [exact Y |]. rewrite Forall_forall in H2. apply H2, Hz.
Qed.
Lemma sort_sorted {V} (l : list (text * V)) : StronglySorted key_le (sort_keys l).
Proof. induction l as [| x l IH]; cbn [sort_keys fold_right]; [constructor |]. apply insert_sorted, IH. Qed.
Lemma filter_sorted {V} f (l : list (text * V)) : StronglySorted key_le l -> StronglySorted key_le (filter f l).
Proof.
  induction 1 as [| x l H IH F]; cbn [filter]; [constructor |]. destruct (f x); [| exact IH]. constructor; [exact IH |].
  apply Forall_forall. intros y Hy. apply filter_In in Hy as [Hy _]. rewrite Forall_forall in F. apply F, Hy.
Qed.
Lemma sorted_nth {V} (l : list (text * V)) : StronglySorted key_le l -> forall i j x y, (i < j)%nat -> nth_error l i = Some x -> nth_error l j = Some y -> key_le x y.
Proof.
  induction 1 as [| z l H IH F]; intros [| i] [| j] x y L A B; cbn in A, B; try discriminate; try lia.
  - inversion A. subst. rewrite Forall_forall in F. apply F. eapply nth_error_In. exact B.
  - eapply (IH i j); eauto. lia.
Qed.
(** ** Grouping *)
Lemma group_names pick boxes : map v_name (fst (group pick boxes)) = first_uses (map b_name boxes).
Proof. unfold group. cbn [fst]. rewrite !map_map. rewrite <- map_id. apply map_ext. reflexivity. Qed.
Lemma group_no_errors pick boxes : snd (group pick boxes) = O -> forall n, In n (first_uses (map b_name boxes)) -> snd (group_one pick boxes n) = O.
Proof.
  unfold group. cbn [snd]. intros H n I. induction (first_uses (map b_name boxes)) as [| m l IH]; [destruct I |]. cbn [map fold_right] in H. destruct I as [-> | I]; [lia | apply IH; [lia | exact I]].
Qed.
Lemma externs_in pick boxes : names_apart boxes -> Permutation (externs (fst (group pick boxes)))
  (map (fun n => (escape n, fst (group_one pick boxes n))) (filter (fun n => match v_ext (fst (group_one pick boxes n)) with Some _ => true | None => false end) (first_uses (map b_name boxes)))).
Proof.
  intros A. unfold externs, receiver_dict. rewrite (dict_all _ []).
  - cbn [app]. set (f := fun x : text * receiver => _). transitivity (filter f (map (fun r => (escape (v_name r), r)) (fst (group pick boxes)))).
    { set (l := map _ (fst (group pick boxes))). assert (P := sort_perm l). revert P. generalize (sort_keys l). intros s P. induction P; cbn [filter]; auto.
      - destruct (f x); auto.
      - destruct (f x), (f y); auto. apply perm_swap.
      - etransitivity; eauto. }
    unfold group. cbn [fst]. rewrite !map_map. induction (first_uses (map b_name boxes)) as [| n l IH]; [constructor |]. cbn [map filter].
    unfold f at 1. cbn [snd]. destruct (v_ext (fst (group_one pick boxes n))); cbn [map]; [constructor |]; exact IH.
  - cbn [map app]. rewrite <- (map_map v_name escape), group_names. destruct (first_uses_spec (map b_name boxes)) as [N H].
    assert (Q : forall n m, In n (first_uses (map b_name boxes)) -> In m (first_uses (map b_name boxes)) -> escape n = escape m -> n = m).
    { intros n m I J E. apply H in I, J. apply in_map_iff in I as (b & <- & I). apply in_map_iff in J as (c & <- & J). apply A; assumption. }
    clear H. induction N as [| n l N1 N2 IH]; cbn [map]; constructor.
    + intros I. apply in_map_iff in I as (m & E & I). assert (m = n) by (apply Q; [right; exact I | left; reflexivity | exact E]). subst. contradiction.
    + apply IH. intros a b I J. apply Q; right; assumption.
Qed.
Lemma NoDup_externs pick boxes : names_apart boxes -> NoDup (map (fun x => v_name (snd x)) (externs (fst (group pick boxes)))).
Proof.
  intros A. eapply Permutation_NoDup; [apply Permutation_map, Permutation_sym, externs_in, A |]. rewrite map_map. cbn [snd].
  rewrite (map_ext _ (fun n => n)) by reflexivity. rewrite map_id. apply NoDup_filter, first_uses_spec.
Qed.
Lemma group_exported pick boxes n : snd (group_one pick boxes n) = O -> (forall b, In b boxes -> sound_box b) ->
  let v := fst (group_one pick boxes n) in
  (v_ext v <> None <-> exported boxes n) /\
  (forall b e, In b boxes -> b_name b = n -> b_ext b = Some e -> v_ext v = Some e) /\
  (v_ext v = Some Param -> exists a, v_attrs v = Some a /\ forall b c, In b boxes -> b_name b = n -> b_attrs b = Some c -> attrs_eqb a c = true).
Proof.
  intros H0 Hs. unfold group_one in *. set (rs := filter (fun b => text_eqb n (b_name b)) boxes) in *.
  assert (R : forall b, In b rs <-> In b boxes /\ b_name b = n).
  { intros b. unfold rs. rewrite filter_In. split; intros [I E]; (split; [exact I |]); [apply text_eqb_eq in E; congruence | subst; apply text_eqb_refl]. }
  destruct (existsb (is_ext Param) rs) eqn:EP, (existsb (is_ext Event) rs) eqn:EE; cbn [fst snd v_ext v_attrs andb] in *; try discriminate H0.
  - (* a parameter *)
    assert (X : forall b e, In b boxes -> b_name b = n -> b_ext b = Some e -> e = Param).
    { intros b [|] I N E; [reflexivity |]. exfalso. assert (existsb (is_ext Event) rs = true); [| congruence]. apply existsb_exists. exists b. split; [apply R; auto |]. unfold is_ext. rewrite E. reflexivity. }
    apply existsb_exists in EP as (b0 & I0 & E0). unfold is_ext in E0. destruct (b_ext b0) as [[|] |] eqn:Eb; try discriminate E0. apply R in I0 as [I0 N0].
    split; [split; [intros _; exists b0; split; [exact I0 |]; split; [exact N0 | congruence] | discriminate] |].
    split; [intros b e I N E; rewrite (X b e I N E); reflexivity |]. intros _.
    set (l := flat_map _ rs) in *.
    assert (Il : forall b c, In b boxes -> b_name b = n -> b_attrs b = Some c -> In c l).
    { intros b c I N E. apply in_flat_map. exists b. split; [apply R; auto |]. rewrite E. left. reflexivity. }
    destruct (b_attrs b0) as [a0 |] eqn:Ea; [| destruct (Hs b0 I0 Eb Ea)].
    specialize (Il b0 a0 I0 N0 Ea) as J. destruct l as [| a l'] eqn:El; [destruct J |]. exists a. split; [reflexivity |].
    destruct (forallb (attrs_eqb a) (a :: l')) eqn:Ef; [| discriminate H0]. rewrite forallb_forall in Ef. intros b c I N E. apply Ef. eapply Il; eauto.
  - assert (X : forall b e, In b boxes -> b_name b = n -> b_ext b = Some e -> e = Event).
    { intros b [|] I N E; [| reflexivity]. exfalso. assert (existsb (is_ext Param) rs = true); [| congruence]. apply existsb_exists. exists b. split; [apply R; auto |]. unfold is_ext. rewrite E. reflexivity. }
    apply existsb_exists in EE as (b0 & I0 & E0). unfold is_ext in E0. destruct (b_ext b0) as [[|] |] eqn:Eb; try discriminate E0. apply R in I0 as [I0 N0].
    split; [split; [intros _; exists b0; split; [exact I0 |]; split; [exact N0 | congruence] | discriminate] |].
    split; [intros b e I N E; rewrite (X b e I N E); reflexivity | discriminate].
  - assert (X : forall b e, In b boxes -> b_name b = n -> b_ext b = Some e -> False).
    { intros b [|] I N E.
      - assert (existsb (is_ext Param) rs = true); [| congruence]. apply existsb_exists. exists b. split; [apply R; auto |]. unfold is_ext. rewrite E. reflexivity.
      - assert (existsb (is_ext Event) rs = true); [| congruence]. apply existsb_exists. exists b. split; [apply R; auto |]. unfold is_ext. rewrite E. reflexivity. }
    split; [split; [congruence |]; intros (b & I & N & E); destruct (b_ext b) as [e |] eqn:Eb; [destruct (X b e I N Eb) | congruence] |].
    split; [intros b e I N E; destruct (X b e I N E) | discriminate].
Qed.
Lemma conflicts_none l : name_conflicts l = O -> NoDup (map upper l).
Proof.
  induction l as [| k l IH]; intros H; cbn [name_conflicts map] in *; constructor; [| apply IH; lia].
  intros I. apply in_map_iff in I as (u & E & I). assert (J : In u (filter (fun u => text_eqb (upper k) (upper u)) l)) by (apply filter_In; split; [exact I |]; rewrite E; apply text_eqb_refl).
  destruct (filter _ l); [destruct J | cbn in H; lia].
Qed.
Lemma conflicts_some l : NoDup (map upper l) -> name_conflicts l = O.
Proof.
  induction l as [| k l IH]; intros H; cbn [name_conflicts map] in *; [reflexivity |]. inversion H as [| ? ? H1 H2]. subst. rewrite IH by exact H2. rewrite Nat.add_0_r.
  destruct (filter _ l) as [| u f] eqn:E; [reflexivity |]. exfalso. apply H1. assert (J : In u (filter (fun u => text_eqb (upper k) (upper u)) l)) by (rewrite E; left; reflexivity).
  apply filter_In in J as [J1 J2]. apply text_eqb_eq in J2. rewrite J2. apply in_map. exact J1.
Qed.
