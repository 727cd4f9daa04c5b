(** Removal, clearing, size; histories. *)
From Verif Require Import QueueModel QueueSpec PoolSpec PoolProofs QueueProofs QueueProofs2 QueueProofs3.
From Coq Require Import Permutation Sorted.
Require Import ZifyBool ZifyNat.

Lemma perm_free gl S1 e S2 :
  Permutation (map fst gl) (map (fun x => (e_handle x, e_img x)) (S1 ++ e :: S2)) ->
  exists k c, nth_error (gl : list gmsg) k = Some (e_handle e, e_img e, c) /\
    Permutation (map fst (remove_nth k gl)) (map (fun x => (e_handle x, e_img x)) (S1 ++ S2)).
Proof.
  intros HP. assert (Hin : In (e_handle e, e_img e) (map fst gl)).
  { eapply Permutation_in; [apply Permutation_sym; exact HP|]. apply in_map_iff. exists e. split; [reflexivity|].
    rewrite in_app_iff; right; left; reflexivity. }
  apply In_nth_error in Hin. destruct Hin as (k & Hk). rewrite nth_error_map in Hk.
  destruct (nth_error gl k) as [[[a img] c]|] eqn:E; cbn in Hk; [|discriminate Hk]. injection Hk as -> ->.
  exists k, c. split; [exact E|].
  pose proof (Permutation_map fst (remove_nth_perm k gl _ E)) as HP2. cbn [map fst] in HP2.
  rewrite HP2 in HP. rewrite map_app in HP. cbn [map] in HP.
  rewrite <- Permutation_middle in HP. apply Permutation_cons_inv in HP. rewrite <- map_app in HP. exact HP.
Qed.

Lemma sorted_remove S1 e S2 : StronglySorted ets_le (S1 ++ e :: S2) -> StronglySorted ets_le (S1 ++ S2).
Proof.
  induction S1 as [|x S1 IH]; cbn [app]; intros H; inversion H as [|? ? H1 H2]; subst; [exact H1|].
  constructor; [apply IH; exact H1|]. apply Forall_app in H2. destruct H2 as (Ha & Hb).
  inversion Hb; subst. apply Forall_app; split; assumption.
Qed.

Lemma edata_frame2 h h' ns S :
  (forall x, In x ns -> n_m (h' x) = n_m (h x) /\ n_send (h' x) = n_send (h x) /\ n_let (h' x) = n_let (h x)) ->
  Forall2 (edata h) ns S -> Forall2 (edata h') ns S.
Proof. apply edata_frame. Qed.

(** What [mq_peek] shows. *)
Lemma peek_spec q S ns ps gl : QRep q S ns ps gl ->
  mq_peek_msg q = Ok (match S with [] => None | e :: _ => Some (e_img e, e_let e, e_send e) end).
Proof.
  intros [HL Hd HI HP HS]. unfold mq_peek_msg, mq_hasMessage. rewrite (l_head _ _ _ HL).
  destruct Hd as [|n e ns S He Hd]; cbn [hd].
  - reflexivity.
  - assert (Hv : 1 <= n <= q_nalloc q) by (apply (l_valid _ _ _ HL); left; reflexivity).
    destruct (Z.eqb_spec n 0); [lia|]. cbn [negb]. rewrite deref_ok by assumption. cbn [obind].
    destruct He as (E1 & E2 & E3). rewrite E1.
    rewrite (read_bytes_ok (q_mp q) gl (e_handle e) (e_img e)); [|exact HI|].
    + cbn [obind]. rewrite E2, E3. reflexivity.
    + apply (in_handles _ gl HP). left; reflexivity.
Qed.

(** Common step: the storage of entry [e] is released. *)
Lemma free_entry q S1 e S2 gl :
  PInv (q_mp q) gl ->
  Permutation (map fst gl) (map (fun x => (e_handle x, e_img x)) (S1 ++ e :: S2)) ->
  exists p gl', mp_freeMessage (q_mp q) (e_handle e) = Ok p /\ PInv p gl' /\
    Permutation (map fst gl') (map (fun x => (e_handle x, e_img x)) (S1 ++ S2)).
Proof.
  intros HI HP. destruct (perm_free gl S1 e S2 HP) as (k & c & Hk & HP').
  destruct (free_inv (q_mp q) gl k _ _ c HI Hk) as (p & Ep & HI' & _).
  exists p, (remove_nth k gl). auto.
Qed.

Lemma pop_spec q S ns ps gl : QRep q S ns ps gl ->
  exists q' ns' ps' gl', mq_pop q = Ok q' /\ QRep q' (tl S) ns' ps' gl' /\ q_nalloc q' = q_nalloc q /\
    (length (tl S) <= length S - 1)%nat.
Proof.
  intros [HL Hd HI HP HS]. unfold mq_pop, mq_hasMessage. rewrite (l_head _ _ _ HL).
  destruct Hd as [|n e ns S He Hd]; cbn [hd tl].
  - exists q, [], ps, gl. split; [reflexivity|]. split; [constructor; assumption || constructor|].
    split; [reflexivity|cbn; lia].
  - assert (Hv : forall x, In x ((n :: ns) ++ ps) -> 1 <= x <= q_nalloc q) by apply (l_valid _ _ _ HL).
    assert (Hvn : 1 <= n <= q_nalloc q) by (apply Hv; left; reflexivity).
    destruct (Z.eqb_spec n 0); [lia|]. cbn [negb]. rewrite deref_ok by assumption. cbn [obind].
    destruct He as (E1 & E2 & E3). rewrite E1.
    destruct (free_entry q [] e S gl HI HP) as (p & gl' & Ep & HI' & HP').
    rewrite Ep. cbn [obind]. rewrite upd_ok by (qs; lia). qs. rewrite deref_ok by (qs; lia). qs.
    rewrite hs_same. cbn [with_msg n_next].
    pose proof (l_seg _ _ _ HL) as Hseg. cbn [seg] in Hseg. destruct Hseg as (Hsp & Hsn & Hseg). rewrite Hsn.
    pose proof (l_nodup _ _ _ HL) as Hnd. cbn [app] in Hnd. apply NoDup_cons_iff in Hnd. destruct Hnd as (Hni & Hnd).
    assert (Hne : forall x, In x (ns ++ ps) -> x <> n) by (intros x Hx ->; contradiction).
    destruct ns as [|m ns]; cbn [hd].
    + cbn [Z.eqb]. qs. rewrite upd_ok by (qs; lia). qs. rewrite upd_ok by (qs; lia). qs.
      inversion Hd; subst S.
      eexists _, [], (n :: ps), gl'. split; [reflexivity|]. split; [|qs; split; [reflexivity|cbn; lia]].
      constructor; qs.
      * apply (link_out q _ [] n [] ps); qs; cbn [app hd last]; try reflexivity.
        -- exact HL.
        -- intros x Hx. rewrite !hs_other by (apply Hne; exact Hx).
           destruct (Z.eqb_spec x 0) as [->|]; [|reflexivity]. specialize (Hv 0 (or_intror Hx)). lia.
        -- intros x [].
        -- rewrite hs_same. cbn [with_prev n_next]. rewrite hs_same. cbn [with_next n_next]. apply (l_pool _ _ _ HL).
      * constructor.
      * exact HI'.
      * exact HP'.
      * constructor.
    + assert (Hvm : 1 <= m <= q_nalloc q) by (apply Hv; right; left; reflexivity).
      destruct (Z.eqb_spec m 0); [lia|]. rewrite upd_ok by (qs; lia). qs.
      rewrite upd_ok by (qs; lia). qs. rewrite upd_ok by (qs; lia). qs.
      assert (Hmn : m <> n) by (apply Hne; left; reflexivity).
      eexists _, (m :: ns), (n :: ps), gl'. split; [reflexivity|]. split; [|qs; split; [reflexivity|cbn; lia]].
      constructor; qs.
      * apply (link_out q _ [] n (m :: ns) ps); qs; cbn [app hd last]; try reflexivity.
        -- exact HL.
        -- intros x Hx. assert (x <> n) by (apply Hne; exact Hx). rewrite !hs_other by assumption.
           destruct (Z.eqb_spec x 0) as [->|]; [specialize (Hv 0 (or_intror Hx)); lia|].
           destruct (Z.eq_dec x m) as [->|]; [rewrite hs_same; cbn [with_prev n_next]; hso; reflexivity|hso; reflexivity].
        -- intros x Hx. assert (x <> n) by (apply Hne; apply in_or_app; left; exact Hx). rewrite !hs_other by assumption.
           destruct (Z.eqb_spec x m) as [->|]; [rewrite hs_same; reflexivity|hso; reflexivity].
        -- rewrite hs_same. cbn [with_prev n_next]. rewrite hs_same. cbn [with_next n_next]. apply (l_pool _ _ _ HL).
        -- change (m :: ns) with ([] ++ m :: ns). rewrite (l_tail _ _ _ HL). reflexivity.
      * eapply edata_frame; [|exact Hd]. intros x Hx. assert (x <> n) by (apply Hne; apply in_or_app; left; exact Hx).
        rewrite !hs_other by assumption.
        destruct (Z.eq_dec x m) as [->|]; [rewrite hs_same; cbn [with_prev n_m n_send n_let]; hso; auto|hso; auto].
      * exact HI'.
      * exact HP'.
      * inversion HS; assumption.
Qed.

Lemma rep_len q S ns ps gl : QRep q S ns ps gl -> (length S <= Z.to_nat (q_nalloc q))%nat.
Proof.
  intros [HL Hd _ _ _]. rewrite <- (forall2_len _ _ _ Hd).
  assert (Hnd : NoDup ns) by (eapply nodup_app_l; exact (l_nodup _ _ _ HL)).
  assert (Hincl : incl ns (map Z.of_nat (seq 1 (Z.to_nat (q_nalloc q))))).
  { intros z Hz. apply in_map_iff. exists (Z.to_nat z).
    assert (1 <= z <= q_nalloc q) by (apply (l_valid _ _ _ HL); rewrite in_app_iff; tauto).
    split; [lia|]. apply in_seq. lia. }
  pose proof (NoDup_incl_length Hnd Hincl) as Hl. rewrite map_length, seq_length in Hl. exact Hl.
Qed.

Lemma has_msg q S ns ps gl : QRep q S ns ps gl -> mq_hasMessage q = match S with [] => false | _ => true end.
Proof.
  intros [HL Hd _ _ _]. unfold mq_hasMessage. rewrite (l_head _ _ _ HL).
  destruct Hd as [|n e ns S He Hd]; [reflexivity|]. cbn [hd].
  assert (1 <= n <= q_nalloc q) by (apply (l_valid _ _ _ HL); left; reflexivity).
  destruct (Z.eqb_spec n 0); [lia|reflexivity].
Qed.

Lemma clear_loop_spec fuel : forall q S ns ps gl, QRep q S ns ps gl -> (length S <= fuel)%nat ->
  exists q' ns' ps' gl', clear_loop fuel q = Ok q' /\ QRep q' [] ns' ps' gl'.
Proof.
  induction fuel as [|fuel IH]; intros q S ns ps gl HR Hlen; cbn [clear_loop]; rewrite (has_msg _ _ _ _ _ HR).
  - destruct S; [|cbn in Hlen; lia]. exists q, ns, ps, gl. auto.
  - destruct S as [|e S]; [exists q, ns, ps, gl; auto|].
    destruct (pop_spec q _ ns ps gl HR) as (q' & ns' & ps' & gl' & Ep & HR' & _). rewrite Ep. cbn [obind].
    apply (IH q' S ns' ps' gl' HR'). cbn in Hlen. lia.
Qed.

Lemma size_loop_spec q ns : forall fuel pv, seg (q_heap q) pv ns 0 ->
  (forall x, In x ns -> 1 <= x <= q_nalloc q) -> (length ns < fuel)%nat ->
  size_loop fuel q (hd 0 ns) = Ok (zlen ns).
Proof.
  induction ns as [|n ns IH]; intros fuel pv Hs Hv Hf; destruct fuel as [|fuel]; cbn [length] in Hf; try lia; cbn [size_loop hd].
  - reflexivity.
  - assert (1 <= n <= q_nalloc q) by (apply Hv; left; reflexivity).
    destruct (Z.eqb_spec n 0); [lia|]. rewrite deref_ok by assumption. cbn [obind].
    destruct Hs as (_ & E & Hs). rewrite E. rewrite (IH fuel n Hs); [|intros; apply Hv; right; assumption|lia].
    cbn [obind]. rewrite zlen_cons. reflexivity.
Qed.

Lemma size_spec q S ns ps gl : QRep q S ns ps gl -> mq_size q = Ok (zlen S).
Proof.
  intros HR. pose proof (rep_len _ _ _ _ _ HR) as Hlen. destruct HR as [HL Hd _ _ _].
  unfold mq_size. rewrite (l_head _ _ _ HL). rewrite (size_loop_spec q ns _ 0).
  - unfold zlen. rewrite (forall2_len _ _ _ Hd). reflexivity.
  - apply (l_seg _ _ _ HL).
  - intros x Hx. apply (l_valid _ _ _ HL). rewrite in_app_iff; tauto.
  - rewrite (forall2_len _ _ _ Hd). lia.
Qed.

(** Search loop. *)
Lemma find_loop_spec q m : forall ns S fuel pv,
  seg (q_heap q) pv ns 0 -> Forall2 (edata (q_heap q)) ns S ->
  (forall x, In x ns -> 1 <= x <= q_nalloc q) -> (length ns < fuel)%nat ->
  (find_loop fuel q m pv (hd 0 ns) = Ok (last ns pv, 0) /\ ~ In m (map e_handle S)) \/
  (exists l1 n l2 S1 e S2, ns = l1 ++ n :: l2 /\ S = S1 ++ e :: S2 /\ length l1 = length S1 /\ e_handle e = m /\
     edata (q_heap q) n e /\ Forall2 (edata (q_heap q)) l1 S1 /\ Forall2 (edata (q_heap q)) l2 S2 /\
     ~ In m (map e_handle S1) /\
     find_loop fuel q m pv (hd 0 ns) = Ok (last l1 pv, n)).
Proof.
  induction ns as [|n ns IH]; intros S fuel pv Hs Hd Hv Hf; destruct fuel as [|fuel]; cbn [length] in Hf; try lia; cbn [find_loop hd].
  - inversion Hd; subst. left. split; [reflexivity|intros []].
  - assert (1 <= n <= q_nalloc q) by (apply Hv; left; reflexivity).
    destruct (Z.eqb_spec n 0); [lia|]. rewrite deref_ok by assumption. cbn [obind].
    destruct S as [|e S]; [inversion Hd|].
    assert (Hde : edata (q_heap q) n e /\ Forall2 (edata (q_heap q)) ns S) by (inversion Hd; split; assumption).
    destruct Hde as (He & Hd'). pose proof He as (E1 & _). rewrite E1.
    destruct (Z.eqb_spec (e_handle e) m) as [Em|Em].
    + right. exists [], n, ns, [], e, S. repeat (split; [reflexivity || assumption|]).
      split; [constructor|]. split; [exact Hd'|]. split; [intros []|reflexivity].
    + destruct Hs as (_ & E & Hs). rewrite E.
      destruct (IH S fuel n Hs Hd') as [(Ef & Hni)|(l1 & k & l2 & S1 & f & S2 & -> & -> & Hl & Eh & Hk & Hd1 & Hd2 & Hni & Ef)].
      * intros; apply Hv; right; assumption.
      * lia.
      * left. rewrite Ef. split; [rewrite last_cons; reflexivity|]. cbn [map In]. intros [Hc|Hc]; congruence || contradiction.
      * right. exists (n :: l1), k, l2, (e :: S1), f, S2.
        split; [reflexivity|]. split; [reflexivity|]. split; [cbn; lia|]. split; [exact Eh|]. split; [exact Hk|].
        split; [constructor; assumption|]. split; [exact Hd2|].
        split; [cbn [map In]; intros [Hc|Hc]; congruence || contradiction|].
        rewrite Ef. rewrite last_cons. reflexivity.
Qed.

Lemma cancels_none h s S : ~ In h (map e_handle S) ->
  existsb (cancels h s) S = false /\ filter (fun e => negb (cancels h s e)) S = S.
Proof.
  induction S as [|e S IH]; cbn [map In existsb filter]; intros H; [auto|].
  assert (cancels h s e = false).
  { unfold cancels. destruct (Z.eqb_spec (e_handle e) h); [exfalso; tauto|reflexivity]. }
  rewrite H0. cbn [negb orb]. destruct IH as (I1 & I2); [tauto|]. rewrite I1, I2. auto.
Qed.

Lemma cancels_one h s S1 e S2 : ~ In h (map e_handle S1) -> ~ In h (map e_handle S2) -> e_handle e = h ->
  existsb (cancels h s) (S1 ++ e :: S2) = ((s =? 0) || (e_send e =? s)) /\
  filter (fun e => negb (cancels h s e)) (S1 ++ e :: S2) =
     if ((s =? 0) || (e_send e =? s)) then S1 ++ S2 else S1 ++ e :: S2.
Proof.
  intros H1 H2 E. destruct (cancels_none h s S1 H1) as (A1 & A2). destruct (cancels_none h s S2 H2) as (B1 & B2).
  rewrite existsb_app, filter_app. cbn [existsb filter]. rewrite A1, A2, B1, B2.
  assert (Ec : cancels h s e = ((s =? 0) || (e_send e =? s))).
  { unfold cancels. rewrite E, Z.eqb_refl. reflexivity. }
  rewrite Ec. rewrite orb_false_r. cbn [orb].
  destruct ((s =? 0) || (e_send e =? s)); cbn [negb]; auto.
Qed.

Lemma nodup_handles q S ns ps gl : QRep q S ns ps gl -> NoDup (map e_handle S).
Proof.
  intros [_ _ HI HP _].
  assert (H : NoDup (map fst (map fst gl))).
  { destruct HI as (_ & Hpd & _ & Hok). apply pd_app_l in Hpd. clear HP.
    induction gl as [|g gl IH]; cbn [map]; [constructor|]. cbn [map pd] in Hpd. destruct Hpd as (Hf & Hpd).
    inversion Hok as [|? ? Hg Hok']; subst. constructor; [|apply IH; assumption].
    intros Hin. apply in_map_iff in Hin. destruct Hin as (x & Ex & Hx). apply in_map_iff in Hx. destruct Hx as (g' & <- & Hg').
    rewrite Forall_map, Forall_forall in Hf. specialize (Hf g' Hg'). unfold disj, grange in Hf. cbn [fst snd] in Hf.
    rewrite Ex in Hf. destruct Hg as (Hc & _ & _). rewrite Forall_forall in Hok'. destruct (Hok' g' Hg') as (Hc' & _).
    pose proof (csz_pos (snd g) ltac:(lia)). pose proof (csz_pos (snd g') ltac:(lia)). lia. }
  apply (Permutation_map fst) in HP. rewrite (map_map _ fst S) in HP. cbn [fst] in HP.
  eapply Permutation_NoDup; [exact HP|exact H].
Qed.

Lemma remove_spec q S ns ps gl m s : QRep q S ns ps gl ->
  exists q' ns' ps' gl',
    mq_removeMessage q m s = Ok (q', existsb (cancels m s) S) /\
    QRep q' (filter (fun e => negb (cancels m s e)) S) ns' ps' gl'.
Proof.
  intros HR. pose proof (nodup_handles _ _ _ _ _ HR) as Hnh. pose proof (rep_len _ _ _ _ _ HR) as Hlen.
  unfold mq_removeMessage. rewrite (has_msg _ _ _ _ _ HR).
  destruct S as [|e0 S0]; [exists q, ns, ps, gl; split; [reflexivity|exact HR]|].
  destruct ns as [|h0 ns0]; [destruct HR as [_ Hd _ _ _]; inversion Hd|].
  pose proof HR as [HL Hd HI HP HS].
  rewrite (l_head _ _ _ HL). cbn [hd].
  assert (Hv : forall x, In x ((h0 :: ns0) ++ ps) -> 1 <= x <= q_nalloc q) by apply (l_valid _ _ _ HL).
  assert (Hv0 : 1 <= h0 <= q_nalloc q) by (apply Hv; left; reflexivity).
  rewrite deref_ok by assumption. cbn [obind].
  assert (Hde : edata (q_heap q) h0 e0 /\ Forall2 (edata (q_heap q)) ns0 S0) by (inversion Hd; split; assumption).
  destruct Hde as ((E1 & E2 & E3) & Hd0). rewrite E1, E2.
  cbn [map] in Hnh. apply NoDup_cons_iff in Hnh. destruct Hnh as (Hni0 & Hnh0).
  destruct (Z.eqb_spec (e_handle e0) m) as [Em|Em].
  - destruct (cancels_one m s [] e0 S0) as (C1 & C2); [intros []|rewrite <- Em; exact Hni0|exact Em|].
    cbn [app] in C1, C2. rewrite C1, C2.
    destruct ((s =? 0) || (e_send e0 =? s)).
    + destruct (pop_spec q _ _ ps gl HR) as (q' & ns' & ps' & gl' & Ep & HR' & _). rewrite Ep. cbn [obind].
      exists q', ns', ps', gl'. split; [reflexivity|exact HR'].
    + exists q, (h0 :: ns0), ps, gl. split; [reflexivity|exact HR].
  - pose proof (l_seg _ _ _ HL) as Hseg. cbn [seg] in Hseg. destruct Hseg as (_ & Hsn & Hseg). rewrite Hsn.
    assert (Hfuel : (length ns0 < Datatypes.S (Datatypes.S (Z.to_nat (q_nalloc q))))%nat).
    { rewrite (forall2_len _ _ _ Hd0). cbn in Hlen. lia. }
    destruct (find_loop_spec q m ns0 S0 _ h0 Hseg Hd0 ltac:(intros; apply Hv; right; rewrite in_app_iff; tauto) Hfuel)
      as [(Ef & Hni)|(l1 & n & l2 & S1 & e & S2 & En & ES & Hl & Eh & He & Hd1 & Hd2 & Hni & Ef)]; rewrite Ef; cbn [obind].
    + rewrite Z.eqb_refl. destruct (cancels_none m s (e0 :: S0)) as (C1 & C2).
      { cbn [map In]. intros [Hc|Hc]; congruence || contradiction. }
      rewrite C1, C2. exists q, (h0 :: ns0), ps, gl. split; [reflexivity|exact HR].
    + assert (Hvn : 1 <= n <= q_nalloc q).
      { apply Hv. right. rewrite En, !in_app_iff. left; right; left; reflexivity. }
      destruct (Z.eqb_spec n 0); [lia|]. rewrite deref_ok by assumption. cbn [obind].
      destruct He as (F1 & F2 & F3). rewrite F2.
      assert (Hni2 : ~ In m (map e_handle S2)).
      { rewrite ES, map_app in Hnh0. cbn [map] in Hnh0. apply NoDup_remove_2 in Hnh0. rewrite in_app_iff in Hnh0.
        rewrite <- Eh. tauto. }
      destruct (cancels_one m s (e0 :: S1) e S2) as (C1 & C2); [cbn [map In]; intros [Hc|Hc]; congruence || contradiction|exact Hni2|exact Eh|].
      cbn [app] in C1, C2. rewrite ES. rewrite C1, C2.
      destruct ((s =? 0) || (e_send e =? s)); [|exists q, (h0 :: ns0), ps, gl; split; [reflexivity|rewrite <- ES; exact HR]].
      rewrite ES in HP. destruct (free_entry q (e0 :: S1) e S2 gl HI HP) as (p & gl' & Ep & HI' & HP').
      rewrite Eh in Ep. rewrite Ep. cbn [obind]. rewrite upd_ok by (qs; lia). qs.
      pose proof (l_nodup _ _ _ HL) as Hnd. rewrite En in Hnd.
      assert (HPn : Permutation ((h0 :: l1 ++ n :: l2) ++ ps) (n :: (h0 :: l1) ++ l2 ++ ps)).
      { apply Permutation_sym. change (h0 :: l1 ++ n :: l2) with ((h0 :: l1) ++ n :: l2). rewrite <- app_assoc.
        exact (Permutation_middle (h0 :: l1) (l2 ++ ps) n). }
      pose proof (Permutation_NoDup HPn Hnd) as Hnd2. apply NoDup_cons_iff in Hnd2. destruct Hnd2 as (Hnin & Hnd2).
      assert (Hne : forall x, In x ((h0 :: l1) ++ l2 ++ ps) -> x <> n) by (intros x Hx ->; contradiction).
      set (pn := last l1 h0).
      assert (Epn : pn = last (h0 :: l1) 0) by (rewrite last_cons; reflexivity).
      assert (Hpn : In pn (h0 :: l1)) by (rewrite Epn; apply last_in; discriminate).
      assert (Hpnn : pn <> n) by (apply Hne; rewrite in_app_iff; left; exact Hpn).
      assert (Hvp : 1 <= pn <= q_nalloc q).
      { apply Hv. rewrite En. change (h0 :: l1 ++ n :: l2) with ((h0 :: l1) ++ n :: l2). rewrite !in_app_iff. tauto. }
      assert (Hvx : forall x, In x ((h0 :: l1) ++ l2 ++ ps) -> 1 <= x <= q_nalloc q).
      { intros x Hx. apply Hv. rewrite En. eapply Permutation_in; [apply Permutation_sym; exact HPn|right; exact Hx]. }
      rewrite (l_tail _ _ _ HL). rewrite En.
      rewrite En in Hseg. apply seg_app in Hseg. destruct Hseg as (_ & Hseg). cbn [seg] in Hseg. destruct Hseg as (Hnpv & Hnnx & Hseg).
      assert (Etl : last (h0 :: l1 ++ n :: l2) 0 = last (n :: l2) 0).
      { change (h0 :: l1 ++ n :: l2) with ((h0 :: l1) ++ n :: l2). apply last_app_cons. }
      rewrite Etl.
      destruct l2 as [|y l2].
      * (* tail *)
        cbn [last]. rewrite Z.eqb_refl. rewrite upd_ok by (qs; lia). qs.
        rewrite upd_ok by (qs; lia). qs. rewrite upd_ok by (qs; lia). qs.
        inversion Hd2; subst S2. rewrite app_nil_r in *.
        eexists _, (h0 :: l1), (n :: ps), gl'. split; [reflexivity|].
        constructor; qs.
        -- rewrite <- (app_nil_r (h0 :: l1)).
           apply (link_out q _ (h0 :: l1) n [] ps); qs; rewrite ?app_nil_r; cbn [hd]; try rewrite <- Epn; try reflexivity.
           ++ change ((h0 :: l1) ++ [n]) with (h0 :: l1 ++ [n]). rewrite <- En. exact HL.
           ++ intros x Hx. assert (x <> n) by (apply Hne; exact Hx). hso.
              destruct (Z.eqb_spec x pn) as [->|]; [rewrite hs_same; reflexivity|hso; reflexivity].
           ++ intros x Hx. assert (Hxi : In x ((h0 :: l1) ++ [] ++ ps)) by (rewrite in_app_iff; left; exact Hx).
              assert (x <> n) by (apply Hne; exact Hxi). hso.
              destruct (Z.eqb_spec x 0) as [->|]; [specialize (Hvx 0 Hxi); lia|].
              destruct (Z.eq_dec x pn) as [->|]; [rewrite hs_same; cbn [with_next n_prev]; hso; reflexivity|hso; reflexivity].
           ++ rewrite hs_same. cbn [with_prev n_next]. rewrite hs_same. cbn [with_next n_next]. apply (l_pool _ _ _ HL).
           ++ apply (l_head _ _ _ HL).
        -- assert (Hd01 : Forall2 (edata (q_heap q)) (h0 :: l1) (e0 :: S1)) by (constructor; [split; [exact E1|split; assumption]|exact Hd1]).
           eapply edata_frame; [|exact Hd01]. intros x Hx.
           assert (x <> n) by (apply Hne; rewrite in_app_iff; left; exact Hx). hso.
           destruct (Z.eq_dec x pn) as [->|]; [rewrite hs_same; cbn [with_next n_m n_send n_let]; hso; auto|hso; auto].
        -- exact HI'.
        -- exact HP'.
        -- rewrite ES in HS. change (e0 :: S1 ++ [e]) with ((e0 :: S1) ++ [e]) in HS. apply sorted_remove in HS.
           rewrite app_nil_r in HS. exact HS.
      * (* middle *)
        change (last (n :: y :: l2) 0) with (last (y :: l2) 0).
        assert (Hly : In (last (y :: l2) 0) ((h0 :: l1) ++ (y :: l2) ++ ps)).
        { rewrite !in_app_iff. right; left. apply last_in; discriminate. }
        pose proof (Hne _ Hly) as Hlyn.
        destruct (Z.eqb_spec n (last (y :: l2) 0)); [congruence|].
        rewrite deref_ok by (qs; lia). qs. rewrite hs_same. cbn [with_msg n_next]. rewrite Hnnx. cbn [hd].
        assert (Hyi : In y ((h0 :: l1) ++ (y :: l2) ++ ps)) by (rewrite !in_app_iff; right; left; left; reflexivity).
        pose proof (Hne y Hyi) as Hyn. pose proof (Hvx y Hyi) as Hvy.
        assert (Hpy : pn <> y).
        { intros E. assert (N : NoDup ((h0 :: l1) ++ (y :: l2) ++ ps)) by exact Hnd2.
          eapply (nodup_app_disj (h0 :: l1)); [exact N|exact Hpn|]. rewrite E. left; reflexivity. }
        rewrite upd_ok by (qs; lia). qs. rewrite upd_ok by (qs; lia). qs.
        rewrite upd_ok by (qs; lia). qs. rewrite upd_ok by (qs; lia). qs.
        eexists _, ((h0 :: l1) ++ y :: l2), (n :: ps), gl'. split; [reflexivity|].
        constructor; qs.
        -- apply (link_out q _ (h0 :: l1) n (y :: l2) ps); qs; rewrite <- ?Epn; cbn [hd]; try reflexivity.
           ++ change ((h0 :: l1) ++ n :: y :: l2) with (h0 :: l1 ++ n :: y :: l2). rewrite <- En. exact HL.
           ++ intros x Hx. assert (x <> n) by (apply Hne; exact Hx). hso.
              destruct (Z.eqb_spec x pn) as [->|].
              ** hso. rewrite hs_same. reflexivity.
              ** destruct (Z.eq_dec x y) as [->|]; [rewrite hs_same; cbn [with_prev n_next]; hso; reflexivity|hso; reflexivity].
           ++ intros x Hx. assert (Hxi : In x ((h0 :: l1) ++ (y :: l2) ++ ps)) by (rewrite app_assoc, in_app_iff; left; exact Hx).
              assert (x <> n) by (apply Hne; exact Hxi). hso.
              destruct (Z.eqb_spec x y) as [->|]; [rewrite hs_same; reflexivity|]. hso.
              destruct (Z.eq_dec x pn) as [->|]; [rewrite hs_same; cbn [with_next n_prev]; hso; reflexivity|hso; reflexivity].
           ++ rewrite hs_same. cbn [with_prev n_next]. rewrite hs_same. cbn [with_next n_next]. apply (l_pool _ _ _ HL).
           ++ apply (l_head _ _ _ HL).
           ++ rewrite (l_tail _ _ _ HL). rewrite En. rewrite last_app_cons. change (h0 :: l1 ++ n :: y :: l2) with ((h0 :: l1) ++ n :: y :: l2).
              rewrite last_app_cons. reflexivity.
        -- assert (Hd01 : Forall2 (edata (q_heap q)) ((h0 :: l1) ++ y :: l2) ((e0 :: S1) ++ S2)).
           { apply Forall2_app; [constructor; [split; [exact E1|split; assumption]|exact Hd1]|exact Hd2]. }
           eapply edata_frame; [|exact Hd01]. intros x Hx.
           assert (x <> n) by (apply Hne; rewrite app_assoc, in_app_iff; left; exact Hx). hso.
           destruct (Z.eq_dec x y) as [->|].
           ++ rewrite hs_same; cbn [with_prev n_m n_send n_let]; hso; auto.
           ++ hso. destruct (Z.eq_dec x pn) as [->|]; [rewrite hs_same; cbn [with_next n_m n_send n_let]; hso; auto|hso; auto].
        -- exact HI'.
        -- exact HP'.
        -- rewrite ES in HS. change (e0 :: S1 ++ e :: S2) with ((e0 :: S1) ++ e :: S2) in HS. apply sorted_remove in HS. exact HS.
Qed.

(** ** Histories *)
Lemma run_spec ops : forall q S ns ps gl,
  QRep q S ns ps gl -> Forall wf_qop ops -> Forall no_clear_after ops ->
  match q_run q ops with
  | Ok (q', rs) => exists S' ns' ps' gl', correct S ops rs S' /\ QRep q' S' ns' ps' gl'
  | AssertFail => True
  | UB => False
  end.
Proof.
  induction ops as [|o ops IH]; intros q S ns ps gl HR Hwf Hnc; cbn [q_run].
  - exists S, ns, ps, gl. split; [reflexivity|exact HR].
  - pose proof (Forall_inv Hwf) as Ho. pose proof (Forall_inv_tail Hwf) as Hwf'.
    pose proof (Forall_inv Hnc) as Hn. pose proof (Forall_inv_tail Hnc) as Hnc'.
    destruct o as [srcSize img l s| |h s| | |t]; cbn [q_step].
    + destruct Ho as (Hsz & Hg). pose proof (schedule_spec q S ns ps gl srcSize img l s HR Hsz Hg) as H.
      destruct (mq_addMessageByTimestamp q srcSize img l s) as [[q' a]| |]; cbn [obind]; auto.
      destruct H as (Hfr & ns' & ps' & gl' & HR'). specialize (IH q' _ ns' ps' gl' HR' Hwf' Hnc').
      destruct (q_run q' ops) as [[q'' rs]| |]; cbn [obind]; auto.
      destruct IH as (S' & ns'' & ps'' & gl'' & Hc & HR''). exists S', ns'', ps'', gl''. cbn [correct]. auto.
    + rewrite (peek_spec _ _ _ _ _ HR). cbn [obind].
      destruct (pop_spec q S ns ps gl HR) as (q' & ns' & ps' & gl' & Ep & HR' & _). rewrite Ep. cbn [obind].
      specialize (IH q' _ ns' ps' gl' HR' Hwf' Hnc').
      destruct (q_run q' ops) as [[q'' rs]| |]; cbn [obind]; auto.
      destruct IH as (S' & ns'' & ps'' & gl'' & Hc & HR''). exists S', ns'', ps'', gl''. cbn [correct]. auto.
    + destruct (remove_spec q S ns ps gl h s HR) as (q' & ns' & ps' & gl' & Ep & HR'). rewrite Ep. cbn [obind].
      specialize (IH q' _ ns' ps' gl' HR' Hwf' Hnc').
      destruct (q_run q' ops) as [[q'' rs]| |]; cbn [obind]; auto.
      destruct IH as (S' & ns'' & ps'' & gl'' & Hc & HR''). exists S', ns'', ps'', gl''. cbn [correct]. auto.
    + rewrite (size_spec _ _ _ _ _ HR). cbn [obind].
      specialize (IH q _ ns ps gl HR Hwf' Hnc').
      destruct (q_run q ops) as [[q'' rs]| |]; cbn [obind]; auto.
      destruct IH as (S' & ns'' & ps'' & gl'' & Hc & HR''). exists S', ns'', ps'', gl''. cbn [correct]. auto.
    + unfold mq_clear. destruct (clear_loop_spec _ q S ns ps gl HR (rep_len _ _ _ _ _ HR)) as (q' & ns' & ps' & gl' & Ep & HR').
      rewrite Ep. cbn [obind]. specialize (IH q' _ ns' ps' gl' HR' Hwf' Hnc').
      destruct (q_run q' ops) as [[q'' rs]| |]; cbn [obind]; auto.
    + destruct Hn.
Qed.

Lemma init_rep junkh junk kb : 0 < kb ->
  exists q, mq_init junkh junk kb = Ok q /\ QRep q [] [] [] [].
Proof.
  intros Hk. unfold mq_init. destruct (Z.ltb_spec 0 kb); [|lia]. eexists; split; [reflexivity|].
  constructor; cbn [q_mp q_heap].
  - constructor; cbn; try reflexivity; try exact I; try (constructor; fail). intros x []. 
  - constructor.
  - apply init_pinv; assumption.
  - constructor.
  - constructor.
Qed.
