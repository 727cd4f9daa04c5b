(** Linked-list layer of the message queue proofs. *)
From Verif Require Import QueueModel QueueSpec PoolSpec PoolProofs.
From Coq Require Import Permutation.
Require Import ZifyBool ZifyNat.

Lemma hs_same h n x : heap_set h n x n = x.
Proof. unfold heap_set; rewrite Z.eqb_refl; reflexivity. Qed.
Lemma hs_other h n x k : k <> n -> heap_set h n x k = h k.
Proof. unfold heap_set; intros; destruct (Z.eqb_spec k n); congruence. Qed.

(** Doubly linked segment between [pv] and [nx]. *)
Fixpoint seg (h : Z -> node) (pv : Z) (ns : list Z) (nx : Z) : Prop :=
  match ns with
  | [] => True
  | n :: ns' => n_prev (h n) = pv /\ n_next (h n) = hd nx ns' /\ seg h n ns' nx
  end.
Fixpoint pchain (h : Z -> node) (ps : list Z) : Prop :=
  match ps with [] => True | n :: ps' => n_next (h n) = hd 0 ps' /\ pchain h ps' end.

Lemma last_cons {A} (x : A) l d : last (x :: l) d = last l x.
Proof. revert x d; induction l as [|y l IH]; intros x d; [reflexivity|]. change (last (x :: y :: l) d) with (last (y :: l) d). rewrite !IH. reflexivity. Qed.

Lemma seg_app h : forall l1 pv l2 nx, seg h pv (l1 ++ l2) nx <-> seg h pv l1 (hd nx l2) /\ seg h (last l1 pv) l2 nx.
Proof.
  induction l1 as [|n l1 IH]; intros pv l2 nx; cbn [app seg].
  - cbn. tauto.
  - rewrite IH. rewrite last_cons. destruct l1 as [|m l1]; cbn [hd app]; tauto.
Qed.

Lemma last_in {A} (l : list A) d : l <> [] -> In (last l d) l.
Proof.
  induction l as [|x l IH]; [congruence|]. intros _. destruct l as [|y l]; [left; reflexivity|].
  right. apply IH. discriminate.
Qed.

Lemma seg_change h h' l : forall pv nx pv' nx',
  seg h pv l nx -> NoDup l ->
  (forall x, In x l -> n_next (h' x) = if x =? last l 0 then nx' else n_next (h x)) ->
  (forall x, In x l -> n_prev (h' x) = if x =? hd 0 l then pv' else n_prev (h x)) ->
  seg h' pv' l nx'.
Proof.
  induction l as [|n l IH]; intros pv nx pv' nx' Hs Hnd Hn Hp; cbn [seg]; [exact I|].
  destruct Hs as (H1 & H2 & H3). inversion Hnd as [|? ? Hni Hnd']; subst.
  split; [|split].
  - rewrite Hp by (left; reflexivity). cbn [hd]. rewrite Z.eqb_refl. reflexivity.
  - rewrite Hn by (left; reflexivity). destruct l as [|m l].
    + cbn [last hd]. rewrite Z.eqb_refl. reflexivity.
    + cbn [hd] in *. destruct (Z.eqb_spec n (last (n :: m :: l) 0)) as [E|E]; [|exact H2].
      exfalso. apply Hni. rewrite E. change (last (n :: m :: l) 0) with (last (m :: l) 0). apply last_in. discriminate.
  - apply (IH n nx n nx' H3 Hnd').
    + intros x Hx. rewrite Hn by (right; exact Hx). destruct l as [|m l]; [destruct Hx|]. reflexivity.
    + intros x Hx. rewrite Hp by (right; exact Hx). cbn [hd].
      destruct (Z.eqb_spec x n) as [->|]; [contradiction|].
      destruct (Z.eqb_spec x (hd 0 l)) as [->|]; [|reflexivity].
      destruct l as [|m l]; [destruct Hx|]. cbn [hd seg] in *. tauto.
Qed.

Lemma pchain_frame h h' ps : (forall x, In x ps -> n_next (h' x) = n_next (h x)) -> pchain h ps -> pchain h' ps.
Proof.
  induction ps as [|n ps IH]; intros Hf H; cbn [pchain] in *; [exact I|].
  destruct H as (H1 & H2). split; [rewrite Hf by (left; reflexivity); exact H1|].
  apply IH; [|exact H2]. intros; apply Hf; right; assumption.
Qed.

Record LRep (q : queue) (ns ps : list Z) : Prop := {
  l_nodup : NoDup (ns ++ ps);
  l_valid : forall x, In x (ns ++ ps) -> 1 <= x <= q_nalloc q;
  l_na : 0 <= q_nalloc q;
  l_seg : seg (q_heap q) 0 ns 0;
  l_head : q_head q = hd 0 ns;
  l_tail : q_tail q = last ns 0;
  l_chain : pchain (q_heap q) ps;
  l_pool : q_pool q = hd 0 ps
}.

Lemma valid_true q x : 1 <= x <= q_nalloc q -> valid q x = true.
Proof. unfold valid; lia. Qed.

Lemma nodup_app_l {A} (l1 l2 : list A) : NoDup (l1 ++ l2) -> NoDup l1.
Proof. induction l1 as [|x l1 IH]; cbn; intros H; constructor; inversion H; subst; [rewrite in_app_iff in *; tauto|auto]. Qed.
Lemma nodup_app_r {A} (l1 l2 : list A) : NoDup (l1 ++ l2) -> NoDup l2.
Proof. induction l1 as [|x l1 IH]; cbn; intros H; [exact H|]. inversion H; auto. Qed.
Lemma nodup_app_disj {A} (l1 l2 : list A) x : NoDup (l1 ++ l2) -> In x l1 -> In x l2 -> False.
Proof.
  induction l1 as [|y l1 IH]; cbn; intros H H1 H2; [exact H1|]. inversion H; subst.
  destruct H1 as [->|H1]; [|auto]. rewrite in_app_iff in *; tauto.
Qed.

Lemma last_app_cons {A} (l1 : list A) x l2 d : last (l1 ++ x :: l2) d = last (x :: l2) d.
Proof. induction l1 as [|y l1 IH]; [reflexivity|]. cbn [app]. rewrite <- IH. cbn [last]. destruct (l1 ++ x :: l2) eqn:E; [destruct l1; discriminate|reflexivity]. Qed.

Lemma link_in q q' l1 n l2 ps :
  LRep q (l1 ++ l2) ps -> ~ In n ((l1 ++ l2) ++ ps) -> 1 <= n <= q_nalloc q' -> q_nalloc q <= q_nalloc q' ->
  (forall x, In x ((l1 ++ l2) ++ ps) -> n_next (q_heap q' x) = if x =? last l1 0 then n else n_next (q_heap q x)) ->
  (forall x, In x (l1 ++ l2) -> n_prev (q_heap q' x) = if x =? hd 0 l2 then n else n_prev (q_heap q x)) ->
  n_prev (q_heap q' n) = last l1 0 -> n_next (q_heap q' n) = hd 0 l2 ->
  q_head q' = hd 0 (l1 ++ n :: l2) -> q_tail q' = last (l1 ++ n :: l2) 0 -> q_pool q' = hd 0 ps ->
  LRep q' (l1 ++ n :: l2) ps.
Proof.
  intros [Hnd Hv Hna Hs Hh Ht Hc Hp] Hni Hn Hal Hnx Hpv Hnp Hnn Hh' Ht' Hp'.
  pose proof (nodup_app_l _ _ Hnd) as Hndl.
  assert (Hnd' : NoDup (l1 ++ n :: l2 ++ ps)).
  { apply (Permutation_NoDup (l := n :: (l1 ++ l2) ++ ps)); [rewrite <- app_assoc; apply Permutation_middle|constructor; assumption]. }
  apply seg_app in Hs. destruct Hs as (Hs1 & Hs2).
  constructor; try assumption.
  - rewrite <- app_assoc. exact Hnd'.
  - intros x Hx. rewrite <- app_assoc in Hx. apply in_app_or in Hx. destruct Hx as [Hx|[->|Hx]]; [|assumption|].
    + assert (1 <= x <= q_nalloc q) by (apply Hv; rewrite !in_app_iff; tauto). lia.
    + rewrite <- app_comm_cons in Hx || idtac. assert (1 <= x <= q_nalloc q) by (apply Hv; rewrite !in_app_iff in *; tauto). lia.
  - lia.
  - apply seg_app. split.
    + cbn [hd]. apply (seg_change (q_heap q) _ l1 0 (hd 0 l2)); [exact Hs1|eapply nodup_app_l; exact Hndl| |].
      * intros x Hx. apply Hnx. rewrite !in_app_iff; tauto.
      * intros x Hx. rewrite Hpv by (rewrite in_app_iff; tauto).
        destruct (Z.eqb_spec x (hd 0 l2)) as [->|].
        -- destruct l2 as [|y l2]; cbn [hd] in *.
           ++ assert (1 <= 0 <= q_nalloc q) by (apply Hv; rewrite !in_app_iff; tauto). lia.
           ++ exfalso. eapply (nodup_app_disj l1 (y :: l2)); [exact Hndl|exact Hx|left; reflexivity].
        -- destruct (Z.eqb_spec x (hd 0 l1)) as [->|]; [|reflexivity].
           destruct l1 as [|y l1]; [destruct Hx|]. cbn [hd seg] in *. tauto.
    + cbn [seg]. split; [|split].
      * rewrite Hnp. destruct l1 as [|y l1] using rev_ind; [reflexivity|]. rewrite !last_last. reflexivity.
      * exact Hnn.
      * apply (seg_change (q_heap q) _ l2 (last l1 0) 0); [exact Hs2|eapply nodup_app_r; exact Hndl| |].
        -- intros x Hx. rewrite Hnx by (rewrite !in_app_iff; tauto).
           destruct (Z.eqb_spec x (last l1 0)) as [E|E].
           ++ exfalso. destruct l1 as [|y l1].
              { cbn in E. assert (1 <= x <= q_nalloc q) by (apply Hv; rewrite !in_app_iff; tauto). lia. }
              eapply (nodup_app_disj (y :: l1) l2); [exact Hndl| |exact Hx]. rewrite E. apply last_in; discriminate.
           ++ destruct (Z.eqb_spec x (last l2 0)) as [E2|]; [|reflexivity].
              destruct l2 as [|y l2] using rev_ind; [destruct Hx|]. rewrite last_last in E2. subst y.
              apply seg_app in Hs2. destruct Hs2 as (_ & Hs2). cbn [seg hd] in Hs2. tauto.
        -- intros x Hx. apply Hpv. rewrite in_app_iff; tauto.
  - apply (pchain_frame (q_heap q)); [|exact Hc]. intros x Hx. rewrite Hnx by (rewrite !in_app_iff; tauto).
    destruct (Z.eqb_spec x (last l1 0)) as [E|]; [|reflexivity]. exfalso.
    destruct l1 as [|y l1].
    { cbn in E. assert (1 <= x <= q_nalloc q) by (apply Hv; rewrite !in_app_iff; tauto). lia. }
    eapply (nodup_app_disj ((y :: l1) ++ l2) ps); [exact Hnd| |exact Hx]. rewrite E. apply in_or_app; left. apply last_in; discriminate.
Qed.

Lemma link_out q q' l1 n l2 ps :
  LRep q (l1 ++ n :: l2) ps -> q_nalloc q = q_nalloc q' ->
  (forall x, In x (l1 ++ l2 ++ ps) -> n_next (q_heap q' x) = if x =? last l1 0 then hd 0 l2 else n_next (q_heap q x)) ->
  (forall x, In x (l1 ++ l2) -> n_prev (q_heap q' x) = if x =? hd 0 l2 then last l1 0 else n_prev (q_heap q x)) ->
  n_next (q_heap q' n) = hd 0 ps ->
  q_head q' = hd 0 (l1 ++ l2) -> q_tail q' = last (l1 ++ l2) 0 -> q_pool q' = n ->
  LRep q' (l1 ++ l2) (n :: ps).
Proof.
  intros [Hnd Hv Hna Hs Hh Ht Hc Hp] Hal Hnx Hpv Hnn Hh' Ht' Hp'.
  rewrite <- app_assoc in Hnd. cbn [app] in Hnd.
  assert (HP : Permutation (l1 ++ n :: l2 ++ ps) (n :: l1 ++ l2 ++ ps)) by (apply Permutation_sym, Permutation_middle).
  pose proof (Permutation_NoDup HP Hnd) as Hnd2. pose proof (proj1 (NoDup_cons_iff _ _) Hnd2) as (Hni & Hnd3).
  assert (Hndl : NoDup (l1 ++ l2)) by (rewrite app_assoc in Hnd3; eapply nodup_app_l; exact Hnd3).
  assert (Hv' : forall x, In x (n :: l1 ++ l2 ++ ps) -> 1 <= x <= q_nalloc q).
  { intros x Hx. apply Hv. rewrite <- app_assoc. cbn [app]. eapply Permutation_in; [apply Permutation_sym; exact HP|exact Hx]. }
  apply seg_app in Hs. destruct Hs as (Hs1 & Hs2). cbn [seg] in Hs2. destruct Hs2 as (Hs2a & Hs2b & Hs2).
  constructor.
  - apply (Permutation_NoDup (l := n :: (l1 ++ l2) ++ ps)); [apply Permutation_middle|]. rewrite <- app_assoc. exact Hnd2.
  - intros x Hx. rewrite <- Hal. apply Hv'. cbn [In]. rewrite !in_app_iff in *. cbn [In] in Hx. tauto.
  - lia.
  - apply seg_app. split.
    + apply (seg_change (q_heap q) _ l1 0 n); [exact Hs1|eapply nodup_app_l; exact Hndl| |].
      * intros x Hx. apply Hnx. rewrite !in_app_iff; tauto.
      * intros x Hx. rewrite Hpv by (rewrite in_app_iff; tauto).
        destruct (Z.eqb_spec x (hd 0 l2)) as [E|].
        -- exfalso. destruct l2 as [|y l2]; cbn [hd] in *.
           ++ assert (1 <= x <= q_nalloc q) by (apply Hv'; cbn [In]; rewrite !in_app_iff; tauto). lia.
           ++ eapply (nodup_app_disj l1 (y :: l2)); [exact Hndl|exact Hx|left; symmetry; exact E].
        -- destruct (Z.eqb_spec x (hd 0 l1)) as [->|]; [|reflexivity].
           destruct l1 as [|y l1]; [destruct Hx|]. cbn [hd seg] in *. tauto.
    + apply (seg_change (q_heap q) _ l2 n 0); [exact Hs2|eapply nodup_app_r; exact Hndl| |].
      * intros x Hx. rewrite Hnx by (rewrite !in_app_iff; tauto).
        destruct (Z.eqb_spec x (last l1 0)) as [E|E].
        -- exfalso. destruct l1 as [|y l1].
           { cbn in E. assert (1 <= x <= q_nalloc q) by (apply Hv'; cbn [In]; rewrite !in_app_iff; tauto). lia. }
           eapply (nodup_app_disj (y :: l1) l2); [exact Hndl| |exact Hx]. rewrite E. apply last_in; discriminate.
        -- destruct (Z.eqb_spec x (last l2 0)) as [E2|]; [|reflexivity].
           destruct l2 as [|y l2] using rev_ind; [destruct Hx|]. rewrite last_last in E2. subst y.
           apply seg_app in Hs2. destruct Hs2 as (_ & Hs2). cbn [seg hd] in Hs2. tauto.
      * intros x Hx. rewrite Hpv by (rewrite in_app_iff; tauto). reflexivity.
  - exact Hh'.
  - exact Ht'.
  - cbn [pchain]. split; [exact Hnn|]. apply (pchain_frame (q_heap q)); [|exact Hc].
    intros x Hx. rewrite Hnx by (rewrite !in_app_iff; tauto).
    destruct (Z.eqb_spec x (last l1 0)) as [E|]; [|reflexivity]. exfalso.
    destruct l1 as [|y l1].
    { cbn in E. assert (1 <= x <= q_nalloc q) by (apply Hv'; cbn [In]; rewrite !in_app_iff; tauto). lia. }
    eapply (nodup_app_disj (y :: l1) (l2 ++ ps)); [exact Hnd3| |apply in_or_app; right; exact Hx]. rewrite E. apply last_in; discriminate.
  - exact Hp'.
Qed.
