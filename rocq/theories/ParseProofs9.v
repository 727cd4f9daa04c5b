(** The order of receivers. *)
From Coq Require Import Permutation Sorting.Sorted Lia.
From Verif Require Import RecvModel RecvSpec RecvProofs RecvProps.
From Verif Require Import ParseModel.
Local Open Scope list_scope.
Local Open Scope Z_scope.

(** A receiver with its depth and its number; deeper ones first, on one level in the order of their creation. *)
Definition pd_before (a b : (Z * Z) * receiver) : Prop :=
  fst (fst b) < fst (fst a) \/ (fst (fst a) = fst (fst b) /\ snd (fst a) < snd (fst b)).

Lemma combine_numbered w rs : List.length w = List.length rs ->
  map (fun x : nat * receiver => (nth (fst x) w (0, 0), snd x)) (numbered rs) = combine w rs.
Proof.
  unfold numbered. intro L. assert (G : forall w0 w rs, List.length w = List.length rs ->
    map (fun x : nat * receiver => (nth (fst x) (w0 ++ w) (0, 0), snd x)) (combine (seq (List.length w0) (List.length rs)) rs) = combine w rs).
  { clear. intros w0 w. revert w0. induction w as [|a w IH]; intros w0 [|r rs] L; try discriminate; [reflexivity|]. cbn [List.length seq combine map]. f_equal.
    - cbn. rewrite app_nth2, Nat.sub_diag by lia. reflexivity.
    - specialize (IH (w0 ++ [a]) rs). rewrite app_length, <- app_assoc in IH. cbn [List.length app] in IH. rewrite Nat.add_1_r in IH. apply IH. cbn in L. lia. }
  apply (G [] w rs L).
Qed.
Lemma filter_map {A B} (f : A -> B) (g : B -> bool) l : filter g (map f l) = map f (filter (fun x => g (f x)) l).
Proof. induction l as [|x l IH]; [reflexivity|]. cbn. destruct (g (f x)); cbn; rewrite IH; reflexivity. Qed.
Lemma sorted_map {A B} (f : A -> B) (P : A -> A -> Prop) (Q : B -> B -> Prop) l :
  (forall a b, In a l -> In b l -> P a b -> Q (f a) (f b)) -> StronglySorted P l -> StronglySorted Q (map f l).
Proof.
  intros H S. induction S as [|a l S IH F]; [constructor|]. cbn. constructor.
  - apply IH. intros x y X Y. apply H; right; auto.
  - rewrite Forall_forall in F |- *. intros b I. apply in_map_iff in I as (x & <- & X). apply H; [left|right|]; auto.
Qed.
Lemma in_numbered rs x : In x (numbered rs) -> nth_error rs (fst x) = Some (snd x) /\ (fst x < List.length rs)%nat.
Proof.
  unfold numbered. intro I. apply In_nth_error in I as [n I]. assert (N : (n < List.length (combine (seq 0 (List.length rs)) rs))%nat) by (apply nth_error_Some; congruence).
  rewrite combine_length, seq_length, Nat.min_id in N. destruct (nth_error rs n) as [r|] eqn:E; [|apply nth_error_None in E; lia].
  assert (M : nth_error (combine (seq 0 (List.length rs)) rs) n = Some (n, r)).
  { apply nth_error_nth with (d := r) in E. rewrite <- E. rewrite (nth_error_nth' _ (0%nat, r)) by (rewrite combine_length, seq_length; lia).
    rewrite combine_nth by apply seq_length. rewrite seq_nth by lia. reflexivity. }
  rewrite M in I. injection I as <-. cbn. split; [|lia]. exact E.
Qed.
Theorem pd_order w rs p k m : compile rs = Some p -> Forall2 (fun x r => r_prio r = recv_priority (fst x) (snd x)) w rs ->
  Forall (fun x => m <= snd x < m + 1000) w -> NoDup (map snd w) ->
  exists order, Permutation order (filter (fun x => name_eqb k (r_name (snd x))) (combine w rs)) /\ StronglySorted pd_before order /\
  send_calls p k = flat_map (fun x => r_conns (snd x)) order.
Proof.
  intros C F W N. assert (L : List.length w = List.length rs) by (clear -F; induction F; cbn; congruence).
  destruct (send_reaches_receivers rs p k C) as (order & P & S & E). set (f := fun x : nat * receiver => (nth (fst x) w (0, 0), snd x)). exists (map f order). split; [|split].
  - rewrite <- (combine_numbered w rs L). fold f. rewrite filter_map. apply Permutation_map. exact P.
  - apply (sorted_map f before); auto. intros [a ra] [b rb] A B H.
    assert (K : forall n r, In (n, r) order -> nth_error w n = Some (nth n w (0, 0)) /\ r_prio r = recv_priority (fst (nth n w (0, 0))) (snd (nth n w (0, 0))) /\ m <= snd (nth n w (0, 0)) < m + 1000).
    { intros n r I. apply (Permutation_in _ P) in I. apply filter_In in I as [I _]. apply in_numbered in I as [I J]. cbn [fst snd] in I, J.
      assert (X : nth_error w n = Some (nth n w (0, 0))) by (apply nth_error_nth'; lia). split; auto. split.
      - clear -F X I. revert n X I. induction F as [|x y w rs H F IH]; intros [|n] X I; try discriminate.
        + cbn in *. congruence.
        + cbn in *. apply IH; auto.
      - rewrite Forall_forall in W. apply W. eapply nth_error_In. exact X. }
    destruct (K a ra A) as (A1 & A2 & A3). destruct (K b rb B) as (B1 & B2 & B3). unfold f, pd_before. cbn [fst snd].
    unfold before in H. cbn [fst snd] in H. rewrite A2, B2 in H. unfold recv_priority in H.
    destruct (nth a w (0, 0)) as [da ia]. destruct (nth b w (0, 0)) as [db ib]. cbn [fst snd] in *.
    destruct H as [H|[H Hab]]; [lia|]. exfalso. assert (ia = ib) by lia. subst ib. assert (J : a = b); [|lia].
    apply (NoDup_nth_error (map snd w)); auto.
    + apply nth_error_Some. rewrite nth_error_map, A1. discriminate.
    + rewrite !nth_error_map, A1, B1. reflexivity.
  - rewrite E. unfold f. clear. induction order as [|x order IH]; [reflexivity|]. cbn. rewrite IH. reflexivity.
Qed.
