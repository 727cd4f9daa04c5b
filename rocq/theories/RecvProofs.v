From Coq Require Import ZifyBool Permutation Sorting.Sorted.
From Verif Require Import RecvModel RecvSpec.

Lemma name_eqb_eq a : forall b, name_eqb a b = true <-> a = b.
Proof.
  induction a as [|x a IH]; intros [|y b]; cbn [name_eqb]; split; try discriminate; try reflexivity.
  - rewrite andb_true_iff, IH, Z.eqb_eq. intros (-> & ->). reflexivity.
  - intros [= -> ->]. rewrite andb_true_iff, Z.eqb_refl. split; [reflexivity|]. apply IH. reflexivity.
Qed.
Lemma name_eqb_refl a : name_eqb a a = true.
Proof. apply name_eqb_eq. reflexivity. Qed.
Lemma name_eqb_spec a b : reflect (a = b) (name_eqb a b).
Proof. destruct (name_eqb a b) eqn:E; constructor; [apply name_eqb_eq; exact E|]. intros H. apply name_eqb_eq in H. congruence. Qed.

Lemma dict_set_get {A} (d : dict A) k v k' : dict_get (dict_set d k v) k' = if name_eqb k' k then Some v else dict_get d k'.
Proof.
  induction d as [|[x y] d IH]; cbn [dict_set dict_get].
  - reflexivity.
  - destruct (name_eqb_spec k x) as [<- | N]; cbn [dict_get].
    + destruct (name_eqb k' k); reflexivity.
    + rewrite IH. destruct (name_eqb_spec k' x) as [-> | N2]; [|reflexivity].
      destruct (name_eqb_spec x k); [congruence|reflexivity].
Qed.
Lemma dict_set_keys {A} (d : dict A) k v : map fst (dict_set d k v) = if existsb (name_eqb k) (map fst d) then map fst d else map fst d ++ [k].
Proof.
  induction d as [|[x y] d IH]; cbn [dict_set map existsb fst]; [reflexivity|].
  destruct (name_eqb_spec k x) as [<- | N]; cbn [orb map fst]; [reflexivity|]. rewrite IH. destruct (existsb (name_eqb k) (map fst d)); reflexivity.
Qed.
Lemma existsb_name k l : existsb (name_eqb k) l = true <-> In k l.
Proof.
  rewrite existsb_exists. split.
  - intros (x & A & B). apply name_eqb_eq in B. subst. exact A.
  - intros H. exists k. split; [exact H|apply name_eqb_refl].
Qed.
Lemma dict_set_nodup {A} (d : dict A) k v : NoDup (map fst d) -> NoDup (map fst (dict_set d k v)).
Proof.
  intros H. rewrite dict_set_keys. destruct (existsb (name_eqb k) (map fst d)) eqn:E; [exact H|].
  apply Permutation_NoDup with (l := k :: map fst d); [apply Permutation_cons_append|]. constructor; [|exact H].
  intros C. apply existsb_name in C. congruence.
Qed.
Lemma dict_get_in {A} (d : dict A) k v : dict_get d k = Some v -> In (k, v) d.
Proof.
  induction d as [|[x y] d IH]; cbn [dict_get]; [discriminate|]. destruct (name_eqb_spec k x) as [-> | N]; [intros [= ->]; left; reflexivity|].
  intros H. right. auto.
Qed.
Lemma dict_get_nodup {A} (d : dict A) k v : NoDup (map fst d) -> In (k, v) d -> dict_get d k = Some v.
Proof.
  induction d as [|[x y] d IH]; intros Hn Hin; [destruct Hin|]. cbn [map fst] in Hn. inversion Hn; subst. cbn [dict_get]. destruct Hin as [E|Hin].
  - injection E as -> ->. rewrite name_eqb_refl. reflexivity.
  - destruct (name_eqb_spec k x) as [-> | N]; [|auto]. exfalso. apply H1. apply in_map_iff. exists (x, v). auto.
Qed.
Lemma dict_get_none {A} (d : dict A) k : dict_get d k = None <-> ~ In k (map fst d).
Proof.
  induction d as [|[x y] d IH]; cbn [dict_get map fst]; [split; [intros _ []|reflexivity]|].
  destruct (name_eqb_spec k x) as [-> | N].
  - split; [discriminate|]. intros H. exfalso. apply H. left. reflexivity.
  - rewrite IH. cbn [In]. split; [intros H [E|E]; [congruence|exact (H E)]|intros H E; apply H; right; exact E].
Qed.

(** Registration. *)
Lemma registered_spec rs : NoDup (map fst (registered rs)) /\
  forall k, dict_get (registered rs) k = match filter (fun r => name_eqb k (r_name r)) rs with [] => None | l => Some l end.
Proof.
  unfold registered. rewrite <- (rev_involutive rs). induction (rev rs) as [|r l (IH1 & IH2)]; cbn [rev].
  - cbn. split; [constructor|reflexivity].
  - rewrite fold_left_app. cbn [fold_left]. unfold register at 1. split.
    + apply dict_set_nodup. exact IH1.
    + intros k. change (dict_get (dict_set (fold_left register (rev l) []) (r_name r)
        (match dict_get (fold_left register (rev l) []) (r_name r) with Some l => l | None => [] end ++ [r])) k =
        match filter (fun r => name_eqb k (r_name r)) (rev l ++ [r]) with [] => None | l => Some l end).
      rewrite dict_set_get, filter_app. cbn [filter]. destruct (name_eqb_spec k (r_name r)) as [-> | N].
      * rewrite IH2. destruct (filter (fun r0 => name_eqb (r_name r) (r_name r0)) (rev l)); reflexivity.
      * rewrite app_nil_r. apply IH2.
Qed.

(** Sorting: a numbered version of the insertion sort. *)
Fixpoint insert_num (r : nat * receiver) (l : list (nat * receiver)) :=
  match l with
  | [] => [r]
  | x :: l' => if r_prio (snd x) <=? r_prio (snd r) then r :: l else x :: insert_num r l'
  end.
Lemma insert_num_map r l : map snd (insert_num r l) = insert_prio (snd r) (map snd l).
Proof. induction l as [|x l IH]; [reflexivity|]. cbn [insert_num map insert_prio]. destruct (r_prio (snd x) <=? r_prio (snd r)); cbn [map]; [reflexivity|]. f_equal. exact IH. Qed.
Lemma insert_num_perm r l : Permutation (insert_num r l) (r :: l).
Proof.
  induction l as [|x l IH]; [reflexivity|]. cbn [insert_num]. destruct (r_prio (snd x) <=? r_prio (snd r)); [reflexivity|].
  rewrite IH. apply perm_swap.
Qed.
Lemma insert_num_sorted r l : (forall x, In x l -> (fst r < fst x)%nat) -> StronglySorted before l -> StronglySorted before (insert_num r l).
Proof.
  intros Hlt H. induction H as [|x l H IH Hx]; cbn [insert_num]; [constructor; [constructor|constructor]|].
  destruct (r_prio (snd x) <=? r_prio (snd r)) eqn:E.
  - constructor; [constructor; assumption|]. rewrite Forall_forall in Hx. apply Forall_forall. intros y Hy.
    assert (r_prio (snd y) <= r_prio (snd r)). { destruct Hy as [<- | Hy]; [lia|]. destruct (Hx y Hy) as [C|C]; lia. }
    specialize (Hlt y Hy). unfold before. lia.
  - constructor; [apply IH; intros y Hy; apply Hlt; right; exact Hy|].
    apply Forall_forall. intros y Hy. apply (Permutation_in _ (insert_num_perm r l)) in Hy as [<- | Hy].
    + left. lia.
    + rewrite Forall_forall in Hx. auto.
Qed.
Definition sort_num (l : list (nat * receiver)) := fold_right insert_num [] l.
Lemma sort_num_map l : map snd (sort_num l) = sort_prio (map snd l).
Proof. induction l as [|x l IH]; [reflexivity|]. cbn [sort_num fold_right map sort_prio]. rewrite insert_num_map. f_equal. exact IH. Qed.
Lemma sort_num_perm l : Permutation (sort_num l) l.
Proof. induction l as [|x l IH]; [reflexivity|]. cbn [sort_num fold_right]. rewrite insert_num_perm. constructor. exact IH. Qed.
Lemma sort_num_sorted l : StronglySorted (fun a b => (fst a < fst b)%nat) l -> StronglySorted before (sort_num l).
Proof.
  induction 1 as [|x l H IH Hx]; [constructor|]. cbn [sort_num fold_right]. apply insert_num_sorted; [|exact IH].
  intros y Hy. apply (Permutation_in _ (sort_num_perm l)) in Hy. rewrite Forall_forall in Hx. auto.
Qed.
Lemma numbered_sorted rs : forall k, StronglySorted (fun a b : nat * receiver => (fst a < fst b)%nat) (combine (seq k (length rs)) rs).
Proof.
  induction rs as [|r rs IH]; intros k; cbn [length seq combine]; [constructor|]. constructor; [apply IH|].
  apply Forall_forall. intros [n x] Hx. apply in_combine_l in Hx. apply in_seq in Hx. cbn. lia.
Qed.
Lemma sorted_filter {A} (R : A -> A -> Prop) f l : StronglySorted R l -> StronglySorted R (filter f l).
Proof.
  induction 1 as [|x l H IH Hx]; cbn [filter]; [constructor|]. destruct (f x); [|exact IH]. constructor; [exact IH|].
  rewrite Forall_forall in *. intros y Hy. apply filter_In in Hy. apply Hx. tauto.
Qed.
Lemma numbered_filter rs f : map snd (filter (fun x => f (snd x)) (numbered rs)) = filter f rs.
Proof.
  unfold numbered. generalize 0%nat. induction rs as [|r rs IH]; intros k; [reflexivity|]. cbn [length seq combine filter snd].
  destruct (f r); cbn [map snd]; rewrite IH; reflexivity.
Qed.
Lemma flat_map_map {A B C} (f : A -> B) (g : B -> list C) l : flat_map (fun x => g (f x)) l = flat_map g (map f l).
Proof. induction l as [|x l IH]; [reflexivity|]. cbn. rewrite IH. reflexivity. Qed.

Lemma sorted_conns rs k : in_priority_order rs k (flat_map r_conns (sort_prio (filter (fun r => name_eqb k (r_name r)) rs))).
Proof.
  exists (sort_num (filter (fun x => name_eqb k (r_name (snd x))) (numbered rs))). split; [apply sort_num_perm|]. split.
  - apply sort_num_sorted. apply sorted_filter. apply numbered_sorted.
  - rewrite (flat_map_map snd r_conns), sort_num_map. f_equal. f_equal. symmetry. apply (numbered_filter rs (fun r => name_eqb k (r_name r))).
Qed.

(** Grouping. *)
Lemma group_all_keys d : forall g, group_all d = Some g -> map fst g = map fst d.
Proof.
  induction d as [|[k l] d IH]; intros g H; cbn [group_all] in H; [injection H as <-; reflexivity|].
  destruct (group l); [|discriminate]. destruct (group_all d) as [e|] eqn:E; [|discriminate]. injection H as <-. cbn [map fst]. f_equal. auto.
Qed.
Lemma group_all_get d : forall g k, group_all d = Some g ->
  match dict_get d k with Some l => dict_get g k = group l /\ consistent l = true | None => dict_get g k = None end.
Proof.
  induction d as [|[x l] d IH]; intros g k H; cbn [group_all] in H; [injection H as <-; reflexivity|].
  destruct (group l) as [c|] eqn:Ec; [|discriminate]. destruct (group_all d) as [e|] eqn:E; [|discriminate]. injection H as <-. cbn [dict_get].
  destruct (name_eqb k x).
  - split; [congruence|]. unfold group in Ec. destruct (consistent l); [reflexivity|discriminate].
  - apply IH. reflexivity.
Qed.
Lemma grouped_conns rs g : group_control_receivers rs = Some g ->
  NoDup (map fst g) /\
  forall k, match dict_get g k with
            | Some c => In k (map r_name rs) /\ in_priority_order rs k c
            | None => ~ In k (map r_name rs)
            end.
Proof.
  intros H. destruct (registered_spec rs) as (R1 & R2). unfold group_control_receivers in H.
  split; [rewrite (group_all_keys _ _ H); exact R1|]. intros k. pose proof (group_all_get _ g k H) as G. rewrite R2 in G.
  assert (Hin : In k (map r_name rs) <-> filter (fun r => name_eqb k (r_name r)) rs <> []).
  { split.
    - intros Hk E. apply in_map_iff in Hk as (r & <- & Hr). assert (In r []) as []. rewrite <- E. apply filter_In. split; [exact Hr|apply name_eqb_refl].
    - intros E. destruct (filter (fun r => name_eqb k (r_name r)) rs) as [|r l] eqn:F; [congruence|].
      assert (In r (filter (fun r => name_eqb k (r_name r)) rs)) as Hr by (rewrite F; left; reflexivity).
      apply filter_In in Hr as (A & B). apply name_eqb_eq in B. subst k. apply in_map. exact A. }
  destruct (filter (fun r => name_eqb k (r_name r)) rs) as [|r l] eqn:F.
  - rewrite G. rewrite Hin. congruence.
  - destruct G as (-> & G). unfold group. rewrite G. split; [apply Hin; congruence|]. rewrite <- F. apply sorted_conns.
Qed.

(** The switch. *)
Definition distinct_code_names (g : dict (list target)) : Prop := NoDup (map code_name (map fst g)).

Lemma receiver_dict_ok g : forall id acc d, receiver_dict g id acc = Some d -> 0 <= id ->
  NoDup (map fst acc ++ map code_name (map fst g)) ->
  exists new, d = acc ++ new /\ length new = length g /\
    forall j k c, nth_error g j = Some (k, c) -> exists h, py_get_hash k = Some h /\ nth_error new j = Some (code_name k, (h, id + Z.of_nat j)).
Proof.
  induction g as [|[k c] g IH]; intros id acc d H Hid Hn; cbn [receiver_dict map fst] in *.
  - injection H as <-. exists []. rewrite app_nil_r. split; [reflexivity|]. split; [reflexivity|]. intros [|j]; discriminate.
  - destruct (py_get_hash k) as [h|] eqn:Eh; [|discriminate].
    assert (Hset : dict_set acc (code_name k) (h, id) = acc ++ [(code_name k, (h, id))]).
    { assert (Hni : ~ In (code_name k) (map fst acc)).
      { apply NoDup_remove_2 in Hn. intros C. apply Hn. apply in_or_app. left. exact C. }
      clear -Hni. induction acc as [|[x y] acc IH]; [reflexivity|]. cbn [dict_set map fst] in *.
      destruct (name_eqb_spec (code_name k) x) as [E | N]; [exfalso; apply Hni; left; congruence|]. cbn [app]. f_equal. apply IH. intros C. apply Hni. right. exact C. }
    rewrite Hset in H. destruct (IH (id + 1) _ d H ltac:(lia)) as (new & A & B & C).
    { rewrite map_app, <- app_assoc. exact Hn. }
    exists ((code_name k, (h, id)) :: new). split; [rewrite A, <- app_assoc; reflexivity|]. split; [cbn; lia|].
    intros [|j] k' c' Hj; cbn [nth_error] in *.
    + injection Hj as <- <-. exists h. split; [exact Eh|]. rewrite Z.add_0_r. reflexivity.
    + destruct (C j k' c' Hj) as (h' & D & E). exists h'. split; [exact D|]. rewrite E. do 3 f_equal. lia.
Qed.
Lemma no_dup_labels_spec l : no_dup_labels l = true <-> NoDup l.
Proof.
  induction l as [|h l IH]; cbn [no_dup_labels]; [split; [constructor|reflexivity]|].
  rewrite andb_true_iff, IH, negb_true_iff. split.
  - intros (A & B). constructor; [|exact B]. intros C. assert (existsb (Z.eqb h) l = true) by (apply existsb_exists; exists h; split; [exact C|apply Z.eqb_refl]). congruence.
  - intros H. inversion H as [|? ? A B]; subst. split; [|exact B]. destruct (existsb (Z.eqb h) l) eqn:E; [|reflexivity].
    apply existsb_exists in E as (x & E1 & E2). apply Z.eqb_eq in E2. subst x. contradiction.
Qed.
Lemma switch_none d h : ~ In h (map (fun x => fst (snd x)) d) -> switch d h = [].
Proof.
  induction d as [|[x [h' id]] d IH]; intros H; cbn [switch]; [reflexivity|]. cbn [map fst snd In] in H.
  destruct (Z.eqb_spec h h') as [-> | N]; [exfalso; apply H; left; reflexivity|]. apply IH. intros C. apply H. right. exact C.
Qed.
Lemma switch_some (d : dict (Z * Z)) h id j x : NoDup (map (fun x => fst (snd x)) d) -> nth_error d j = Some (x, (h, id)) -> switch d h = [id].
Proof.
  revert j. induction d as [|[y [h' id']] d IH]; intros [|j] Hn Hj; cbn [nth_error map fst snd] in *; try discriminate.
  - injection Hj as <- <- <-. cbn [switch]. rewrite Z.eqb_refl. reflexivity.
  - cbn [switch]. inversion Hn; subst. destruct (Z.eqb_spec h h') as [-> | N]; [|eauto].
    exfalso. apply H1. apply in_map_iff. exists (x, (h', id)). split; [reflexivity|]. eapply nth_error_In. exact Hj.
Qed.
