(** Theorems about named receivers (C36, C54). *)
From Coq Require Import ZifyBool Permutation Sorting.Sorted.
From Verif Require Import RecvModel RecvSpec RecvProofs HashProofs HashProps.

(** Names get different names in the generated code (false only for pairs like "1" and "_1"). *)
Definition code_names_distinct (rs : list receiver) : Prop :=
  forall a b, In a rs -> In b rs -> code_name (r_name a) = code_name (r_name b) -> r_name a = r_name b.

(** C36: in a program that compiles, a message for the hash of a receiver name is scheduled exactly
    once and then reaches the targets of all receivers of that name, and of no other receiver, by
    decreasing priority and in declaration order at equal priority. *)
Theorem named_message_reaches_receivers : forall rs p k h,
  compile rs = Some p -> code_names_distinct rs -> In k (map r_name rs) -> py_get_hash k = Some h ->
  exists id, schedule p h = [id] /\ in_priority_order rs k (receive_calls p id).
Proof.
  intros rs p k h HC HD Hk Hh. unfold compile in HC. destruct (group_control_receivers rs) as [g|] eqn:Eg; [|discriminate].
  destruct (receiver_dict g 0 []) as [d|] eqn:Ed; [|discriminate].
  destruct (no_dup_labels (map (fun x => fst (snd x)) d)) eqn:El; [|discriminate]. injection HC as <-.
  destruct (grouped_conns rs g Eg) as (G1 & G2). apply no_dup_labels_spec in El.
  assert (Hcn : NoDup (map code_name (map fst g))).
  { assert (Hnames : forall x, In x (map fst g) -> In x (map r_name rs)).
    { intros x Hx. specialize (G2 x). destruct (dict_get g x) eqn:E; [tauto|]. apply dict_get_none in E. contradiction. }
    clear -G1 HD Hnames. induction G1 as [|x l Hx Hl IH]; cbn [map]; [constructor|].
    constructor; [|apply IH; intros y Hy; apply Hnames; right; exact Hy].
    intros C. apply in_map_iff in C as (y & E & Hy). apply Hx.
    assert (x = y); [|congruence].
    pose proof (Hnames x (or_introl eq_refl)) as Ix. pose proof (Hnames y (or_intror Hy)) as Iy.
    apply in_map_iff in Ix as (a & <- & Ha). apply in_map_iff in Iy as (b & <- & Hb). apply HD; auto. }
  destruct (receiver_dict_ok g 0 [] d Ed ltac:(lia)) as (new & N1 & N2 & N3); [exact Hcn|]. cbn [app] in N1. subst d.
  specialize (G2 k). destruct (dict_get g k) as [c|] eqn:Ec; [|contradiction]. destruct G2 as (_ & G2).
  apply dict_get_in in Ec. apply In_nth_error in Ec as (j & Ej). destruct (N3 j k c Ej) as (h' & A & B).
  assert (h' = h) by congruence. subst h'. exists (Z.of_nat j). split.
  - unfold schedule. cbn [pr_switch]. rewrite (switch_some _ h _ j _ El B). f_equal.
  - unfold receive_calls. cbn [pr_groups]. rewrite Nat2Z.id, Ej. exact G2.
Qed.
Print Assumptions named_message_reaches_receivers.

(** C36: a message for any other hash is ignored. *)
Theorem unknown_name_ignored : forall rs p h,
  compile rs = Some p -> (forall k, In k (map r_name rs) -> py_get_hash k <> Some h) -> schedule p h = [].
Proof.
  intros rs p h HC HN. unfold compile in HC. destruct (group_control_receivers rs) as [g|] eqn:Eg; [|discriminate].
  destruct (receiver_dict g 0 []) as [d|] eqn:Ed; [|discriminate].
  destruct (no_dup_labels (map (fun x => fst (snd x)) d)) eqn:El; [|discriminate]. injection HC as <-.
  destruct (grouped_conns rs g Eg) as (G1 & G2). unfold schedule. cbn [pr_switch]. apply switch_none. intros C.
  assert (Hk : exists k, In k (map fst g) /\ py_get_hash k = Some h).
  { assert (Hacc : forall id acc d, receiver_dict g id acc = Some d -> In h (map (fun x => fst (snd x)) d) ->
        In h (map (fun x => fst (snd x)) acc) \/ exists k, In k (map fst g) /\ py_get_hash k = Some h).
    { clear. induction g as [|[k c] g IH]; intros id acc d H Hd; cbn [receiver_dict] in H.
      - injection H as <-. left. exact Hd.
      - destruct (py_get_hash k) as [hk|] eqn:Ek; [|discriminate]. destruct (IH _ _ _ H Hd) as [A|(k' & A & B)].
        + assert (In h (map (fun x => fst (snd x)) acc) \/ hk = h) as [B|B].
          { clear -A. induction acc as [|[x [y z]] acc IH]; cbn [dict_set map fst snd In] in *; [tauto|].
            destruct (name_eqb (code_name k) x); cbn [map fst snd In] in A; [tauto|]. destruct A as [A|A]; [tauto|]. specialize (IH A). tauto. }
          * left. exact B.
          * right. exists k. split; [left; reflexivity|congruence].
        + right. exists k'. split; [right; exact A|exact B]. }
    destruct (Hacc 0 [] d Ed C) as [[]|H]; exact H. }
  destruct Hk as (k & A & B). specialize (G2 k). destruct (dict_get g k) eqn:E; [|apply dict_get_none in E; contradiction].
  destruct G2 as (G2 & _). exact (HN k G2 B).
Qed.
Print Assumptions unknown_name_ignored.

(** C36 for [send] objects inside the patch: a send calls the targets of the receivers of its name
    in the same order. *)
Theorem send_reaches_receivers : forall rs p k, compile rs = Some p -> in_priority_order rs k (send_calls p k).
Proof.
  intros rs p k HC. unfold compile in HC. destruct (group_control_receivers rs) as [g|] eqn:Eg; [|discriminate].
  destruct (receiver_dict g 0 []) as [d|] eqn:Ed; [|discriminate].
  destruct (no_dup_labels (map (fun x => fst (snd x)) d)) eqn:El; [|discriminate]. injection HC as <-.
  destruct (grouped_conns rs g Eg) as (G1 & G2). unfold send_calls. cbn [pr_groups]. specialize (G2 k).
  destruct (dict_get g k) as [c|]; [tauto|]. exists []. split; [|split; [constructor|reflexivity]].
  destruct (filter (fun x => name_eqb k (r_name (snd x))) (numbered rs)) as [|x l] eqn:F; [constructor|]. exfalso. apply G2.
  assert (In x (filter (fun x => name_eqb k (r_name (snd x))) (numbered rs))) as Hx by (rewrite F; left; reflexivity).
  apply filter_In in Hx as (A & B). apply name_eqb_eq in B. subst k. apply in_map. destruct x as [n r]. apply in_combine_r in A. exact A.
Qed.
Print Assumptions send_reaches_receivers.

(** The specified order is unique, so the theorems determine the calls. *)
Theorem priority_order_unique : forall rs k t1 t2, in_priority_order rs k t1 -> in_priority_order rs k t2 -> t1 = t2.
Proof.
  intros rs k t1 t2 (o1 & P1 & S1 & ->) (o2 & P2 & S2 & ->). f_equal.
  assert (HP : Permutation o1 o2) by (rewrite P1, P2; reflexivity). clear P1 P2.
  revert o2 S2 HP. induction S1 as [|x o1 S1 IH Hx]; intros o2 S2 HP.
  - apply Permutation_nil in HP. congruence.
  - destruct o2 as [|y o2]; [apply Permutation_sym, Permutation_nil in HP; discriminate|].
    inversion S2 as [|? ? S2' Hy]; subst. rewrite Forall_forall in Hx, Hy.
    assert (x = y).
    { assert (In x (y :: o2)) as [->|A] by (apply (Permutation_in _ HP); left; reflexivity); [reflexivity|].
      assert (In y (x :: o1)) as [->|B] by (apply (Permutation_in _ (Permutation_sym HP)); left; reflexivity); [reflexivity|].
      specialize (Hx y B). specialize (Hy x A). unfold before in *. lia. }
    subst y. f_equal. apply IH; [exact S2'|]. eapply Permutation_cons_inv. exact HP.
Qed.
Print Assumptions priority_order_unique.

(** C54 is false: receivers named "1" and "_1" get the same name in the generated code; the program
    compiles and messages sent to "1" are dropped. *)
Theorem digit_names_collide_refuted : exists rs p h,
  compile rs = Some p /\ In [49] (map r_name rs) /\ py_get_hash [49] = Some h /\ schedule p h = [].
Proof.
  exists [mkRecv [49] 0 None [] [(1, 0)]; mkRecv [95; 49] 0 None [] [(2, 0)]]. eexists _, _.
  split; [vm_compute; reflexivity|]. split; [left; reflexivity|]. split; vm_compute; reflexivity.
Qed.
Print Assumptions digit_names_collide_refuted.

(** C54, the part that holds: distinct names get distinct code names unless one starts with a digit
    and the other is that name after an underscore. *)
Theorem code_name_clash : forall a b, code_name a = code_name b -> a = b \/ a = 95 :: b \/ b = 95 :: a.
Proof.
  intros [|x a] [|y b]; cbn [code_name]; [intros _; left; reflexivity| | |].
  - destruct (is_digit y); discriminate.
  - destruct (is_digit x); discriminate.
  - destruct (is_digit x), (is_digit y); intros H; injection H; intros; subst; auto.
Qed.
Print Assumptions code_name_clash.

(** Three receivers "a" with priorities 0, 2, 0 and one "b". *)
Example recv_example :
  let rs := [mkRecv [97] 0 None [] [(1, 0); (2, 1)]; mkRecv [98] 0 None [] [(9, 0)]; mkRecv [97] 2 (Some 1) [5] [(3, 0)]; mkRecv [97] 0 None [] [(4, 0)]] in
  code_names_distinct rs /\ exists p id h, compile rs = Some p /\ py_get_hash [97] = Some h /\ schedule p h = [id] /\
    receive_calls p id = [(3, 0); (1, 0); (2, 1); (4, 0)] /\ schedule p 12345 = [].
Proof.
  split.
  - intros a b [<-|[<-|[<-|[<-|[]]]]] [<-|[<-|[<-|[<-|[]]]]]; cbn; congruence.
  - eexists _, _, _. split; [vm_compute; reflexivity|]. split; [vm_compute; reflexivity|]. split; [vm_compute; reflexivity|].
    split; vm_compute; reflexivity.
Qed.
