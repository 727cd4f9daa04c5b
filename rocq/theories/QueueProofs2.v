(** Operation layer of the message queue proofs. *)
From Verif Require Import QueueModel QueueSpec PoolSpec PoolProofs QueueProofs.
From Coq Require Import Permutation Sorted.
Require Import ZifyBool ZifyNat.

Definition set_heap (q : queue) (h : Z -> node) : queue :=
  mkQueue (q_head q) (q_tail q) (q_pool q) (q_mp q) h (q_nalloc q).

Ltac qs := cbn [obind set_heap set_pool set_head set_tail set_mp q_head q_tail q_pool q_mp q_heap q_nalloc].

Lemma upd_ok q n f : 1 <= n <= q_nalloc q ->
  upd q n f = Ok (set_heap q (heap_set (q_heap q) n (f (q_heap q n)))).
Proof. intros H; unfold upd; rewrite valid_true by assumption. reflexivity. Qed.
Lemma deref_ok q n : 1 <= n <= q_nalloc q -> deref q n = Ok (q_heap q n).
Proof. intros H; unfold deref; rewrite valid_true by assumption. reflexivity. Qed.

Definition ets_le (a b : entry) : Prop := e_ts a <= e_ts b.
Definition edata (h : Z -> node) (n : Z) (e : entry) : Prop :=
  n_m (h n) = e_handle e /\ n_send (h n) = e_send e /\ n_let (h n) = e_let e.

Record QRep (q : queue) (S : list entry) (ns ps : list Z) (gl : list gmsg) : Prop := {
  r_l : LRep q ns ps;
  r_data : Forall2 (edata (q_heap q)) ns S;
  r_pinv : PInv (q_mp q) gl;
  r_perm : Permutation (map fst gl) (map (fun e => (e_handle e, e_img e)) S);
  r_sorted : StronglySorted ets_le S
}.

(** ** Node pool *)
Lemma getNode_spec q ns ps :
  LRep q ns ps ->
  exists q1 n ps1, mq_getNode q = Ok (q1, n) /\ LRep q1 ns ps1 /\ ~ In n (ns ++ ps1) /\
    1 <= n <= q_nalloc q1 /\ q_mp q1 = q_mp q /\
    (forall x, In x ns -> q_heap q1 x = q_heap q x).
Proof.
  intros [Hnd Hv Hna Hs Hh Ht Hc Hp]. unfold mq_getNode. rewrite Hp.
  destruct ps as [|n ps]; cbn [hd].
  - rewrite Z.eqb_refl. rewrite upd_ok by (qs; lia). qs.
    rewrite deref_ok by (qs; lia). qs. rewrite hs_same. cbn [with_next n_next].
    eexists _, _, []. split; [reflexivity|]. qs.
    assert (Hni : forall x, In x ns -> x <> q_nalloc q + 1).
    { intros x Hx. specialize (Hv x). rewrite app_nil_r in Hv. specialize (Hv Hx). lia. }
    split; [|split; [|split; [|split]]].
    + constructor; qs.
      * exact Hnd.
      * intros x Hx. specialize (Hv x Hx). lia.
      * lia.
      * apply (seg_change (q_heap q) _ ns 0 0); [exact Hs|eapply nodup_app_l; exact Hnd| |].
        -- intros x Hx. rewrite hs_other by auto.
           destruct (Z.eqb_spec x (last ns 0)) as [E|]; [|reflexivity].
           destruct ns as [|y l] using rev_ind; [destruct Hx|]. rewrite last_last in E. subst y.
           apply seg_app in Hs. destruct Hs as (_ & Hs). cbn [seg hd] in Hs. tauto.
        -- intros x Hx. rewrite hs_other by auto.
           destruct (Z.eqb_spec x (hd 0 ns)) as [E|]; [|reflexivity].
           destruct ns as [|y l]; [destruct Hx|]. cbn [hd seg] in *. subst. tauto.
      * exact Hh.
      * exact Ht.
      * exact I.
      * reflexivity.
    + rewrite app_nil_r. intros Hx. apply (Hni _ Hx). reflexivity.
    + lia.
    + reflexivity.
    + intros x Hx. apply hs_other. auto.
  - assert (Hn : 1 <= n <= q_nalloc q) by (apply Hv; rewrite in_app_iff; cbn [In]; tauto).
    destruct (Z.eqb_spec n 0); [lia|]. qs. rewrite Hp. cbn [hd]. rewrite deref_ok by assumption. qs.
    eexists _, _, ps. split; [reflexivity|]. qs.
    pose proof (Permutation_NoDup (Permutation_sym (Permutation_middle ns ps n)) Hnd) as Hnd2.
    apply NoDup_cons_iff in Hnd2. destruct Hnd2 as (Hni & Hnd2).
    destruct Hc as (Hc1 & Hc2).
    split; [|split; [exact Hni|split; [exact Hn|split; [reflexivity|reflexivity]]]].
    constructor; qs; try assumption.
    intros x Hx. apply Hv. rewrite in_app_iff in *. cbn [In]. tauto.
Qed.

(** ** Reading the pool *)
Lemma stored_ts_ok p gl a img : PInv p gl -> In (a, img) (map fst gl) -> stored_ts p a = Ok (img_ts img).
Proof.
  intros HI Hin. apply In_nth_error in Hin. destruct Hin as (i & Hi).
  destruct (pinv_one p gl i a img HI Hi) as (Ha & Hb & Hh).
  assert (Hlen : 24 <= zlen img).
  { destruct HI as (_ & _ & _ & Hok). apply nth_error_In in Hi. apply in_map_iff in Hi.
    destruct Hi as (g & Eg & Hg). rewrite Forall_forall in Hok. destruct (Hok g Hg) as (_ & _ & (Hl & _) & _).
    rewrite Eg in Hl. cbn [snd] in Hl. lia. }
  unfold stored_ts. assert (Hin4 : in_pool p a 4 = true) by (unfold in_pool; lia). rewrite Hin4.
  unfold zlen in Hlen.
  pose proof (Hh 0%nat ltac:(lia)) as H0. pose proof (Hh 1%nat ltac:(lia)) as H1.
  pose proof (Hh 2%nat ltac:(lia)) as H2. pose proof (Hh 3%nat ltac:(lia)) as H3.
  cbn [Z.of_nat Pos.of_succ_nat Pos.succ] in H0, H1, H2, H3. rewrite Z.add_0_r in H0.
  rewrite H0, H1, H2, H3. reflexivity.
Qed.

Lemma read_bytes_ok p gl a img : PInv p gl -> In (a, img) (map fst gl) -> read_bytes p a = Ok img.
Proof.
  intros HI Hin. pose proof Hin as Hin'. apply In_nth_error in Hin. destruct Hin as (i & Hi).
  destruct (pinv_one p gl i a img HI Hi) as (Ha & Hb & Hh).
  assert (Hg : good_img img).
  { destruct HI as (_ & _ & _ & Hok). apply in_map_iff in Hin'. destruct Hin' as (g & Eg & Hg).
    rewrite Forall_forall in Hok. destruct (Hok g Hg) as (_ & _ & Hl & _).
    rewrite Eg in Hl. exact Hl. }
  destruct Hg as (Hlen & Hhdr).
  unfold read_bytes, stored_size. assert (Hin8 : in_pool p a 8 = true) by (unfold in_pool; lia). rewrite Hin8. cbn [obind].
  pose proof (Hh 6%nat ltac:(unfold zlen in Hlen; lia)) as H6. pose proof (Hh 7%nat ltac:(unfold zlen in Hlen; lia)) as H7.
  cbn [Z.of_nat Pos.of_succ_nat Pos.succ] in H6, H7. rewrite H6, H7, Hhdr.
  assert (Hinl : in_pool p a (zlen img) = true) by (unfold in_pool; lia). rewrite Hinl. f_equal.
  unfold zlen. rewrite Nat2Z.id.
  apply nth_ext with (d := 0) (d' := 0).
  - rewrite map_length, seq_length. reflexivity.
  - intros k Hk. rewrite map_length, seq_length in Hk.
    rewrite (nth_indep _ 0 (bytes p (a + Z.of_nat 0))) by (rewrite map_length, seq_length; exact Hk).
    rewrite (map_nth (fun j => bytes p (a + Z.of_nat j))). rewrite seq_nth by exact Hk. apply Hh. exact Hk.
Qed.

Lemma handle_fresh p gl a img c S :
  PInv p ((a, img, c) :: gl) ->
  Permutation (map fst gl) (map (fun e => (e_handle e, e_img e)) S) -> ~ In a (map e_handle S).
Proof.
  intros HI HP Hin. apply in_map_iff in Hin. destruct Hin as (e & E & He).
  assert (Hin : In (a, e_img e) (map fst gl)).
  { eapply Permutation_in; [apply Permutation_sym; exact HP|]. apply in_map_iff. exists e. split; [rewrite E; reflexivity|exact He]. }
  apply In_nth_error in Hin. destruct Hin as (i & Hi).
  pose proof (pinv_live p ((a, img, c) :: gl) 0 (Datatypes.S i) a img a (e_img e) HI eq_refl Hi ltac:(lia)) as D.
  destruct HI as (_ & _ & _ & Hok). inversion Hok as [|? ? H1 H2]; subst.
  destruct H1 as (_ & _ & (Hl1 & _) & _). cbn [fst snd] in Hl1.
  apply nth_error_In in Hi. apply in_map_iff in Hi. destruct Hi as (g & Eg & Hg).
  rewrite Forall_forall in H2. destruct (H2 g Hg) as (_ & _ & (Hl & _) & _). rewrite Eg in Hl. cbn [snd] in Hl. lia.
Qed.

(** ** Sorted lists *)
Lemma sorted_split S t : StronglySorted ets_le S ->
  S = filter (fun x => e_ts x <=? t) S ++ filter (fun x => t <? e_ts x) S.
Proof.
  induction 1 as [|e S HS IH Hf]; cbn [filter]; [reflexivity|].
  destruct (Z.leb_spec (e_ts e) t).
  - destruct (Z.ltb_spec t (e_ts e)); [lia|]. cbn [app]. f_equal. exact IH.
  - destruct (Z.ltb_spec t (e_ts e)); [|lia].
    assert (E1 : filter (fun x => e_ts x <=? t) S = []).
    { clear -Hf H. induction Hf as [|x S Hx Hf IH]; cbn [filter]; [reflexivity|].
      unfold ets_le in Hx. destruct (Z.leb_spec (e_ts x) t); [lia|]. exact IH. }
    rewrite E1 in *. cbn [app] in *. f_equal. exact IH.
Qed.

Lemma sorted_app S1 S2 : StronglySorted ets_le S1 -> StronglySorted ets_le S2 ->
  (forall a b, In a S1 -> In b S2 -> ets_le a b) -> StronglySorted ets_le (S1 ++ S2).
Proof.
  induction 1 as [|e S1 HS IH Hf]; cbn [app]; intros H2 Hc; [exact H2|].
  constructor.
  - apply IH; [exact H2|]. intros; apply Hc; [right|]; assumption.
  - apply Forall_app; split; [exact Hf|]. apply Forall_forall. intros b Hb. apply Hc; [left; reflexivity|exact Hb].
Qed.
Lemma sorted_filter f S : StronglySorted ets_le S -> StronglySorted ets_le (filter f S).
Proof.
  induction 1 as [|e S HS IH Hf]; cbn [filter]; [constructor|].
  destruct (f e); [|exact IH]. constructor; [exact IH|]. apply Forall_forall. intros x Hx.
  apply filter_In in Hx. rewrite Forall_forall in Hf. apply Hf; tauto.
Qed.

Lemma insert_sorted e S : StronglySorted ets_le S -> StronglySorted ets_le (insert_stable e S).
Proof.
  intros HS. unfold insert_stable. apply sorted_app; [apply sorted_filter; exact HS| |].
  - cbn [app]. constructor; [apply sorted_filter; exact HS|]. apply Forall_forall. intros x Hx.
    apply filter_In in Hx. unfold ets_le. lia.
  - intros a b Ha Hb. apply filter_In in Ha. unfold ets_le. cbn [app In] in Hb.
    destruct Hb as [<-|Hb]; [lia|]. apply filter_In in Hb. lia.
Qed.

Lemma insert_perm e S : StronglySorted ets_le S -> Permutation (e :: S) (insert_stable e S).
Proof.
  intros HS. unfold insert_stable. rewrite (sorted_split S (e_ts e) HS) at 1. apply Permutation_middle.
Qed.

Lemma edata_frame h h' ns S :
  (forall x, In x ns -> n_m (h' x) = n_m (h x) /\ n_send (h' x) = n_send (h x) /\ n_let (h' x) = n_let (h x)) ->
  Forall2 (edata h) ns S -> Forall2 (edata h') ns S.
Proof.
  intros Hf H. induction H as [|n e ns S Hne H IH]; constructor.
  - destruct (Hf n (or_introl eq_refl)) as (E1 & E2 & E3). unfold edata in *. rewrite E1, E2, E3. exact Hne.
  - apply IH. intros; apply Hf; right; assumption.
Qed.

(** The timestamp of a queue node. *)
Lemma node_ts_ok q ns e n S gl :
  1 <= n <= q_nalloc q -> PInv (q_mp q) gl ->
  (forall x, In x S -> In (e_handle x, e_img x) (map fst gl)) ->
  In (n, e) (combine ns S) -> Forall2 (edata (q_heap q)) ns S ->
  node_ts q n = Ok (e_ts e).
Proof.
  intros Hv HI Hin Hc Hd. unfold node_ts. rewrite deref_ok by assumption. cbn [obind].
  assert (He : edata (q_heap q) n e).
  { clear -Hc Hd. induction Hd as [|m f ns S Hm H IH]; [destruct Hc|]. destruct Hc as [E|Hc]; [congruence|auto]. }
  destruct He as (-> & _). eapply stored_ts_ok; [exact HI|]. apply Hin. eapply in_combine_r; exact Hc.
Qed.

Lemma forall2_len {A B} (R : A -> B -> Prop) l l' : Forall2 R l l' -> length l = length l'.
Proof. induction 1; cbn; congruence. Qed.

Lemma forall2_split {A B} (R : A -> B -> Prop) ns S1 S2 : Forall2 R ns (S1 ++ S2) ->
  exists l1 l2, ns = l1 ++ l2 /\ Forall2 R l1 S1 /\ Forall2 R l2 S2.
Proof. intros H. apply Forall2_app_inv_r in H. destruct H as (l1 & l2 & H1 & H2 & ->). eauto. Qed.

Lemma combine_app {A B} (l1 l2 : list A) (m1 m2 : list B) : length l1 = length m1 ->
  combine (l1 ++ l2) (m1 ++ m2) = combine l1 m1 ++ combine l2 m2.
Proof.
  revert m1; induction l1 as [|x l1 IH]; intros [|y m1] H; cbn in H; try discriminate; [reflexivity|].
  cbn. f_equal. apply IH. lia.
Qed.
