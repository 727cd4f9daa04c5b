(** Correctness of each queue operation. *)
From Verif Require Import QueueModel QueueSpec PoolSpec PoolProofs QueueProofs QueueProofs2.
From Coq Require Import Permutation Sorted.
Require Import ZifyBool ZifyNat.

Ltac hs1 :=
  match goal with
  | |- context [heap_set _ ?n _ ?k] =>
      first [ rewrite (hs_same _ n _) | rewrite (hs_other _ n _ k) by (congruence || lia || auto) ]
  end.

Ltac hso := repeat (rewrite hs_other by congruence).

Lemma in_handles S (gl : list gmsg) : Permutation (map fst gl) (map (fun e => (e_handle e, e_img e)) S) ->
  forall x, In x S -> In (e_handle x, e_img x) (map fst gl).
Proof.
  intros HP x Hx. eapply Permutation_in; [apply Permutation_sym; exact HP|].
  apply in_map_iff. exists x. auto.
Qed.

(** The insertion loop, started at any node before the insertion point, links [n] in
    between [x] and [y]. *)
Lemma insert_loop_spec q ts n l1 : forall fuel pv x y l2,
  seg (q_heap q) pv (l1 ++ x :: y :: l2) 0 ->
  (forall z, In z (l1 ++ x :: y :: l2) -> 1 <= z <= q_nalloc q) ->
  1 <= n <= q_nalloc q ->
  (forall z, In z (tl (l1 ++ [x])) -> exists t, node_ts q z = Ok t /\ t <= ts) ->
  (exists t, node_ts q y = Ok t /\ ts < t) ->
  (length l1 < fuel)%nat ->
  insert_loop fuel q ts n (hd 0 (l1 ++ [x])) =
    (let! q1 := upd q x (with_next n) in
     let! q2 := upd q1 n (with_next y) in
     let! q3 := upd q2 n (with_prev x) in
     upd q3 y (with_prev n)).
Proof.
  induction l1 as [|z l1 IH]; intros fuel pv x y l2 Hs Hv Hn Hle Hgt Hf.
  - cbn [app hd]. destruct fuel as [|fuel]; [cbn in Hf; lia|]. cbn [insert_loop].
    assert (Hx : 1 <= x <= q_nalloc q) by (apply Hv; cbn; tauto).
    destruct (Z.eqb_spec x 0); [lia|]. rewrite deref_ok by assumption. cbn [obind].
    cbn [app seg hd] in Hs. destruct Hs as (_ & E & _). rewrite E.
    destruct Hgt as (t & Et & Ht). rewrite Et. cbn [obind].
    destruct (Z.ltb_spec ts t); [reflexivity|lia].
  - cbn [app hd]. destruct fuel as [|fuel]; [cbn in Hf; lia|]. cbn [insert_loop].
    assert (Hz : 1 <= z <= q_nalloc q) by (apply Hv; cbn; tauto).
    destruct (Z.eqb_spec z 0); [lia|]. rewrite deref_ok by assumption. cbn [obind].
    cbn [app seg] in Hs. destruct Hs as (_ & E & Hs). rewrite E.
    assert (Ehd : hd 0 (l1 ++ x :: y :: l2) = hd 0 (l1 ++ [x])) by (destruct l1; reflexivity).
    rewrite Ehd.
    assert (Hin : In (hd 0 (l1 ++ [x])) (l1 ++ [x])) by (destruct l1; cbn; tauto).
    destruct (Hle (hd 0 (l1 ++ [x]))) as (t & Et & Ht); [cbn [app tl]; exact Hin|].
    rewrite Et. cbn [obind]. destruct (Z.ltb_spec ts t); [lia|].
    apply (IH fuel z x y l2); try assumption.
    + intros w Hw. apply Hv. right. exact Hw.
    + intros w Hw. apply Hle. cbn [app tl]. destruct (l1 ++ [x]); [destruct Hw|right; exact Hw].
    + cbn in Hf. lia.
Qed.

Lemma list_snoc {A} (l : list A) : l <> [] -> exists l' x, l = l' ++ [x].
Proof. intros H. destruct l as [|y l _] using rev_ind; [congruence|eauto]. Qed.

Lemma forall2_snoc {A B} (R : A -> B -> Prop) ns S e : Forall2 R ns (S ++ [e]) ->
  exists ns' n, ns = ns' ++ [n] /\ Forall2 R ns' S /\ R n e.
Proof.
  intros H. apply forall2_split in H. destruct H as (l1 & l2 & -> & H1 & H2).
  inversion H2 as [|n e' l2' S' Hn Hr]; subst. inversion Hr; subst. eauto.
Qed.

(** Everything [Schedule] does, for a state in which the new node is prepared. *)
Lemma schedule_spec q S ns ps gl srcSize img l s :
  QRep q S ns ps gl -> 24 <= srcSize <= 65535 -> good_img img ->
  match mq_addMessageByTimestamp q srcSize img l s with
  | Ok (q', a) => ~ In a (map e_handle S) /\
      exists ns' ps' gl', QRep q' (insert_stable (mkEntry img l s a) S) ns' ps' gl'
  | AssertFail => True
  | UB => False
  end.
Proof.
  intros [HL Hd HI HP HS] Hsz Hg.
  destruct (getNode_spec q ns ps HL) as (q1 & n & ps1 & Eg & HL1 & Hni & Hn & Hmp & Hframe).
  assert (Hd1 : Forall2 (edata (q_heap q1)) ns S).
  { eapply edata_frame; [|exact Hd]. intros x Hx. rewrite Hframe by exact Hx. auto. }
  pose proof (add_inv (q_mp q1) gl srcSize img) as HA. rewrite Hmp in HA. specialize (HA HI Hsz Hg).
  assert (Hnn : forall x, In x ns -> x <> n).
  { intros x Hx ->. apply Hni. rewrite in_app_iff; tauto. }
  assert (Hnp : forall x, In x (ns ++ ps1) -> x <> n) by (intros x Hx ->; contradiction).
  assert (Hvn : forall x, In x ns -> 1 <= x <= q_nalloc q1).
  { intros x Hx. apply (l_valid _ _ _ HL1). rewrite in_app_iff; tauto. }
  unfold mq_addMessageByTimestamp, mq_hasMessage. rewrite (l_head _ _ _ HL).
  destruct (Z.eqb_spec (hd 0 ns) 0) as [Eh|Eh]; cbn [negb].
  - (* empty queue *)
    assert (Ens : ns = []).
    { destruct ns as [|x ns]; [reflexivity|]. cbn [hd] in Eh. specialize (Hvn x (or_introl eq_refl)). lia. }
    subst ns. inversion Hd; subst S. clear Hd.
    unfold mq_addMessage. rewrite Eg. cbn [obind]. rewrite Hmp.
    destruct (mp_addMessage (q_mp q) srcSize img) as [[p a]| |]; [|exact I|exact HA].
    destruct HA as (HI' & _). cbn [obind].
    rewrite upd_ok by (qs; lia). qs. rewrite upd_ok by (qs; lia). qs. rewrite upd_ok by (qs; lia). qs.
    rewrite (l_tail _ _ _ HL1). cbn [last]. cbn [Z.eqb negb].
    rewrite upd_ok by (qs; lia). qs. split; [cbn; tauto|].
    exists [n], ps1, ((a, img, class_of srcSize) :: gl).
    rewrite !hs_same. cbn [with_msg with_prev with_next n_prev n_next n_m n_send n_let].
    constructor; qs.
    + apply (link_in q1 _ [] n [] ps1); qs; cbn [app hd last]; try assumption; try lia; try reflexivity.
      * intros x Hx. rewrite !hs_other by auto.
        destruct (Z.eqb_spec x 0) as [->|]; [|reflexivity].
        pose proof (l_valid _ _ _ HL1 0 Hx). lia.
      * intros x [].
      * rewrite hs_same. reflexivity.
      * rewrite hs_same. reflexivity.
      * apply (l_pool _ _ _ HL1).
    + unfold insert_stable; cbn [filter app]. constructor; [|constructor].
      unfold edata. rewrite hs_same. cbn. auto.
    + exact HI'.
    + unfold insert_stable; cbn [filter app map fst e_handle e_img]. constructor. exact HP.
    + apply insert_sorted. constructor.
  - (* non-empty queue *)
    rewrite Eg. cbn [obind]. rewrite Hmp.
    destruct (mp_addMessage (q_mp q) srcSize img) as [[p a]| |]; [|exact I|exact HA].
    destruct HA as (HI' & _). cbn [obind].
    rewrite upd_ok by (qs; lia). cbn [obind].
    set (e := mkEntry img l s a).
    set (q2 := set_heap (set_mp q1 p) _).
    assert (Hd2 : Forall2 (edata (q_heap q2)) ns S).
    { eapply edata_frame; [|exact Hd1]. intros x Hx. unfold q2; qs. rewrite hs_other by auto. auto. }
    set (gl' := (a, img, class_of srcSize) :: gl) in *.
    assert (Hin' : forall x, In x S -> In (e_handle x, e_img x) (map fst gl')).
    { intros x Hx. right. apply (in_handles S gl HP); exact Hx. }
    assert (Hts : forall x f, In (x, f) (combine ns S) -> node_ts q2 x = Ok (e_ts f)).
    { intros x f Hc. apply (node_ts_ok q2 ns f x S gl'); try assumption.
      unfold q2; qs. apply Hvn. eapply in_combine_l; exact Hc. }
    assert (Hfresh : ~ In a (map e_handle S)) by (eapply handle_fresh; [exact HI'|exact HP]).
    assert (Hperm : Permutation (map fst gl') (map (fun e => (e_handle e, e_img e)) (insert_stable e S))).
    { unfold gl'. cbn [map fst]. rewrite <- (Permutation_map _ (insert_perm e S HS)). cbn [map e e_handle e_img].
      constructor. exact HP. }
    pose proof (insert_sorted e S HS) as HS'.
    assert (Hnx2 : forall x, In x (ns ++ ps1) -> q_heap q2 x = q_heap q1 x).
    { intros x Hx. unfold q2; qs. apply hs_other; auto. }
    assert (Hen : edata (q_heap q2) n e).
    { unfold q2, edata; qs. rewrite hs_same. cbn. auto. }
    assert (Hal : q_nalloc q2 = q_nalloc q1) by reflexivity.
    assert (Hhd2 : q_head q2 = hd 0 ns) by (unfold q2; qs; apply (l_head _ _ _ HL1)).
    assert (Htl2 : q_tail q2 = last ns 0) by (unfold q2; qs; apply (l_tail _ _ _ HL1)).
    assert (Hpo2 : q_pool q2 = hd 0 ps1) by (unfold q2; qs; apply (l_pool _ _ _ HL1)).
    assert (HI2 : PInv (q_mp q2) gl') by exact HI'.
    clearbody q2. clear HI'.
    destruct ns as [|h0 ns0]; [cbn in Eh; congruence|]. cbn [hd] in Hhd2.
    destruct S as [|e0 S0]; [inversion Hd2|].
    rewrite Hhd2, Htl2. rewrite (Hts h0 e0) by (left; reflexivity). cbn [obind].
    change (img_ts img) with (e_ts e).
    assert (Hv0 : 1 <= h0 <= q_nalloc q2) by (rewrite Hal; apply Hvn; left; reflexivity).
    destruct (Z.ltb_spec (e_ts e) (e_ts e0)) as [Hlt|Hge].
    + (* before the head *)
      rewrite upd_ok by lia. qs. rewrite Hhd2. rewrite upd_ok by (qs; lia). qs.
      rewrite upd_ok by (qs; lia). qs. split; [exact Hfresh|]. fold e.
      assert (Einv : insert_stable e (e0 :: S0) = e :: e0 :: S0).
      { unfold insert_stable.
        assert (E1 : filter (fun x => e_ts x <=? e_ts e) (e0 :: S0) = []).
        { assert (G : Forall (fun x => e_ts e < e_ts x) (e0 :: S0)).
          { inversion HS as [|? ? HS0 Hf]; subst. constructor; [exact Hlt|].
            eapply Forall_impl; [|exact Hf]. unfold ets_le; intros; lia. }
          clear -G. induction G as [|x X Hx G IH]; cbn [filter]; [reflexivity|].
          destruct (Z.leb_spec (e_ts x) (e_ts e)); [lia|exact IH]. }
        pose proof (sorted_split _ (e_ts e) HS) as Hsp. rewrite E1 in *. cbn [app] in *. rewrite <- Hsp. reflexivity. }
      exists (n :: h0 :: ns0), ps1, gl'. rewrite Einv in *.
      constructor; qs.
      * apply (link_in q1 _ [] n (h0 :: ns0) ps1); qs; cbn [app hd last]; try assumption; try lia; try reflexivity.
        -- intros x Hx. rewrite hs_other by auto.
           destruct (Z.eqb_spec x 0) as [->|]; [pose proof (l_valid _ _ _ HL1 0 Hx); lia|].
           destruct (Z.eq_dec x h0) as [->|Hxh].
           ++ rewrite hs_same. cbn [with_prev n_next]. rewrite hs_other by auto. rewrite Hnx2 by exact Hx. reflexivity.
           ++ rewrite hs_other by assumption. rewrite hs_other by auto. rewrite Hnx2 by exact Hx. reflexivity.
        -- intros x Hx. rewrite hs_other by auto.
           destruct (Z.eqb_spec x h0) as [->|Hxh].
           ++ rewrite hs_same. reflexivity.
           ++ rewrite hs_other by assumption. rewrite hs_other by auto.
              rewrite Hnx2 by (rewrite in_app_iff; tauto). reflexivity.
        -- rewrite hs_same. reflexivity.
        -- rewrite hs_same. cbn [with_prev n_next]. rewrite hs_other by (intros <-; apply Hni; left; reflexivity).
           rewrite hs_same. reflexivity.
      * assert (Hnh0 : h0 <> n) by (apply Hnn; left; reflexivity).
        constructor.
        -- unfold edata in *. rewrite hs_same. cbn [with_prev n_m n_send n_let].
           rewrite hs_other by congruence. rewrite hs_same. cbn [with_next n_m n_send n_let]. exact Hen.
        -- eapply edata_frame; [|exact Hd2]. intros x Hx. rewrite hs_other by auto.
           destruct (Z.eq_dec x h0) as [->|Hxh].
           ++ rewrite hs_same. cbn [with_prev n_m n_send n_let]. rewrite hs_other by auto. auto.
           ++ rewrite hs_other by assumption. rewrite hs_other by auto. auto.
      * exact HI2.
      * exact Hperm.
      * exact HS'.
    + (* find the tail *)
      destruct (list_snoc (e0 :: S0)) as (Sf & el & ES); [discriminate|].
      pose proof Hd2 as Hd2'. rewrite ES in Hd2'. apply forall2_snoc in Hd2'.
      destruct Hd2' as (nf & nl & En & Hdf & Hdl).
      assert (Elast : last (h0 :: ns0) 0 = nl) by (rewrite En, last_last; reflexivity).
      rewrite Elast in *.
      assert (Hcl : In (nl, el) (combine (h0 :: ns0) (e0 :: S0))).
      { rewrite En, ES. rewrite combine_app by (eapply forall2_len; exact Hdf). rewrite in_app_iff. right. left. reflexivity. }
      rewrite (Hts nl el Hcl). cbn [obind].
      assert (Hvl : 1 <= nl <= q_nalloc q2).
      { rewrite Hal. apply Hvn. rewrite En, in_app_iff. right; left; reflexivity. }
      assert (Hnln : nl <> n) by (apply Hnn; rewrite En, in_app_iff; right; left; reflexivity).
      destruct (Z.leb_spec (e_ts el) (e_ts e)) as [Hle|Hgt].
      * (* after the tail *)
        rewrite upd_ok by lia. qs. rewrite Htl2. rewrite upd_ok by (qs; lia). qs. rewrite Htl2.
        rewrite upd_ok by (qs; lia). qs. split; [exact Hfresh|]. fold e.
        assert (Eapp : insert_stable e (e0 :: S0) = (e0 :: S0) ++ [e]).
        { unfold insert_stable.
          assert (E2 : filter (fun x => e_ts e <? e_ts x) (e0 :: S0) = []).
          { assert (G : Forall (fun x => e_ts x <= e_ts e) (e0 :: S0)).
            { clear -HS ES Hle. rewrite ES in *. clear ES.
              induction Sf as [|x Sf IH]; cbn [app] in *; [repeat constructor; exact Hle|].
              inversion HS as [|? ? HS0 Hf]; subst. constructor; [|apply IH; exact HS0].
              rewrite Forall_forall in Hf. specialize (Hf el). unfold ets_le in Hf.
              assert (e_ts x <= e_ts el) by (apply Hf; rewrite in_app_iff; right; left; reflexivity). lia. }
            clear -G. induction G as [|x X Hx G IH]; cbn [filter]; [reflexivity|].
            destruct (Z.ltb_spec (e_ts e) (e_ts x)); [lia|exact IH]. }
          pose proof (sorted_split _ (e_ts e) HS) as Hsp. rewrite E2 in *. rewrite app_nil_r in *. rewrite <- Hsp. reflexivity. }
        exists ((h0 :: ns0) ++ [n]), ps1, gl'. rewrite Eapp in *.
        assert (Hnl_nf : NoDup (h0 :: ns0)) by (pose proof (l_nodup _ _ _ HL1) as N; eapply nodup_app_l; exact N).
        constructor; qs.
        -- apply (link_in q1 _ (h0 :: ns0) n [] ps1); qs; rewrite ?app_nil_r; rewrite ?Elast; try assumption; try lia.
           ++ intros x Hx. destruct (Z.eqb_spec x nl) as [->|Hxl].
              ** rewrite hs_same. reflexivity.
              ** rewrite hs_other by assumption. rewrite hs_other by auto. rewrite hs_other by auto.
                 rewrite Hnx2 by exact Hx. reflexivity.
           ++ intros x Hx. cbn [hd]. 
              destruct (Z.eqb_spec x 0) as [->|]; [specialize (Hvn 0 Hx); lia|].
              destruct (Z.eq_dec x nl) as [->|Hxl].
              ** rewrite hs_same. cbn [with_next n_prev]. rewrite hs_other by auto. rewrite hs_other by auto.
                 rewrite Hnx2 by (rewrite in_app_iff; tauto). reflexivity.
              ** rewrite hs_other by assumption. rewrite hs_other by auto. rewrite hs_other by auto.
                 rewrite Hnx2 by (rewrite in_app_iff; tauto). reflexivity.
           ++ rewrite hs_other by congruence. rewrite hs_same. reflexivity.
           ++ rewrite hs_other by congruence. rewrite hs_same. cbn [with_prev n_next]. rewrite hs_same. reflexivity.
           ++ rewrite last_last. reflexivity.
        -- apply Forall2_app.
           ++ eapply edata_frame; [|exact Hd2]. intros x Hx.
              destruct (Z.eq_dec x nl) as [->|Hxl].
              ** rewrite hs_same. cbn [with_next n_m n_send n_let]. rewrite !hs_other by auto. auto.
              ** rewrite hs_other by assumption. rewrite !hs_other by auto. auto.
           ++ constructor; [|constructor]. unfold edata in *. rewrite hs_other by congruence. rewrite hs_same.
              cbn [with_prev n_m n_send n_let]. rewrite hs_same. cbn [with_next n_m n_send n_let]. exact Hen.
        -- exact HI2.
        -- exact Hperm.
        -- exact HS'.
      * (* in the middle *)
        pose proof (sorted_split _ (e_ts e) HS) as Hsp.
        set (A := filter (fun x => e_ts x <=? e_ts e) (e0 :: S0)) in *.
        set (B := filter (fun x => e_ts e <? e_ts x) (e0 :: S0)) in *.
        assert (HA0 : A <> []).
        { unfold A. cbn [filter]. destruct (Z.leb_spec (e_ts e0) (e_ts e)); [discriminate|lia]. }
        assert (HB0 : B <> []).
        { assert (Hin : In el B).
          { unfold B. apply filter_In. split; [rewrite ES, in_app_iff; right; left; reflexivity|lia]. }
          destruct B; [destruct Hin|discriminate]. }
        destruct (list_snoc A HA0) as (A' & ex & EA). destruct B as [|ey B'] eqn:EB; [congruence|].
        pose proof Hd2 as Hd3. rewrite Hsp, EA in Hd3. apply forall2_split in Hd3.
        destruct Hd3 as (l1x & l2y & Ens & Hd1x & Hd2y).
        apply forall2_snoc in Hd1x. destruct Hd1x as (l1 & x & -> & Hd1' & Hdx).
        destruct l2y as [|y l2]; [inversion Hd2y|].
        assert (Hdyy : edata (q_heap q2) y ey /\ Forall2 (edata (q_heap q2)) l2 B') by (inversion Hd2y; split; assumption).
        destruct Hdyy as (Hdy & Hd2'').
        assert (Ens' : h0 :: ns0 = l1 ++ x :: y :: l2) by (rewrite Ens, <- app_assoc; reflexivity).
        assert (Hlen1 : length l1 = length A') by (eapply forall2_len; exact Hd1').
        assert (Ecomb : combine (h0 :: ns0) (e0 :: S0) = combine (l1 ++ [x]) (A' ++ [ex]) ++ (y, ey) :: combine l2 B').
        { rewrite Ens, Hsp, EA. rewrite combine_app; [reflexivity|]. rewrite !app_length, Hlen1. reflexivity. }
        assert (Hseg2 : seg (q_heap q2) 0 (l1 ++ x :: y :: l2) 0).
        { rewrite <- Ens'. apply (seg_change (q_heap q1) _ (h0 :: ns0) 0 0).
          - apply (l_seg _ _ _ HL1).
          - eapply nodup_app_l. exact (l_nodup _ _ _ HL1).
          - intros z Hz. rewrite Hnx2 by (rewrite in_app_iff; tauto).
            destruct (Z.eqb_spec z (last (h0 :: ns0) 0)) as [->|]; [|reflexivity].
            rewrite Elast. pose proof (l_seg _ _ _ HL1) as Hs. rewrite En in Hs. apply seg_app in Hs.
            destruct Hs as (_ & Hs). cbn [seg hd] in Hs. tauto.
          - intros z Hz. rewrite Hnx2 by (rewrite in_app_iff; tauto). cbn [hd].
            destruct (Z.eqb_spec z h0) as [->|]; [|reflexivity].
            pose proof (l_seg _ _ _ HL1) as Hs. cbn [seg] in Hs. tauto. }
        assert (Hvz : forall z, In z (l1 ++ x :: y :: l2) -> 1 <= z <= q_nalloc q2).
        { intros z Hz. rewrite Hal. apply Hvn. rewrite Ens'. exact Hz. }
        assert (Hx0 : x <> n /\ y <> n).
        { split; apply Hnn; rewrite Ens', in_app_iff; right; [left|right; left]; reflexivity. }
        destruct Hx0 as (Hxn & Hyn).
        assert (Hxy : x <> y).
        { assert (N : NoDup (l1 ++ x :: y :: l2)).
          { rewrite <- Ens'. eapply nodup_app_l. exact (l_nodup _ _ _ HL1). }
          apply nodup_app_r in N. inversion N as [|? ? N1 N2]; subst. intros ->. apply N1. left; reflexivity. }
        assert (Hh0 : h0 = hd 0 (l1 ++ [x])).
        { destruct l1 as [|z l1]; cbn [app hd] in *; congruence. }
        rewrite Hh0.
        rewrite (insert_loop_spec q2 (e_ts e) n l1 _ 0 x y l2); try assumption.
        -- assert (Vx : 1 <= x <= q_nalloc q2) by (apply Hvz; rewrite in_app_iff; right; left; reflexivity).
           assert (Vy : 1 <= y <= q_nalloc q2) by (apply Hvz; rewrite in_app_iff; right; right; left; reflexivity).
           rewrite upd_ok by lia. qs. rewrite upd_ok by (qs; lia). qs. rewrite upd_ok by (qs; lia). qs.
           rewrite upd_ok by (qs; lia). qs. split; [exact Hfresh|]. fold e.
           exists ((l1 ++ [x]) ++ n :: y :: l2), ps1, gl'.
           assert (Ei : insert_stable e (e0 :: S0) = (A' ++ [ex]) ++ e :: ey :: B').
           { unfold insert_stable. fold A. fold B. rewrite EA. rewrite EB. reflexivity. }
           rewrite Ei in *.
           assert (Hsub : forall z, In z ((l1 ++ [x]) ++ y :: l2) -> In z (h0 :: ns0)).
           { intros z Hz. rewrite Ens. exact Hz. }
           assert (Hsub' : forall z, In z (((l1 ++ [x]) ++ y :: l2) ++ ps1) -> In z ((h0 :: ns0) ++ ps1)).
           { intros z Hz. rewrite Ens. exact Hz. }
           constructor; qs.
           ++ apply (link_in q1 _ (l1 ++ [x]) n (y :: l2) ps1); qs; rewrite ?last_last; cbn [hd].
              ** rewrite <- Ens. exact HL1.
              ** intros Hc. apply Hni. apply Hsub'. exact Hc.
              ** lia.
              ** lia.
              ** intros z Hz. assert (Hzn : z <> n) by (apply Hnp; apply Hsub'; exact Hz).
                 destruct (Z.eq_dec z y) as [->|Hzy].
                 --- rewrite hs_same. cbn [with_prev n_next]. hso.
                     destruct (Z.eqb_spec y x); [congruence|].
                     rewrite Hnx2 by (apply Hsub'; exact Hz). reflexivity.
                 --- hso. destruct (Z.eqb_spec z x) as [->|Hzx].
                     +++ hso. hso. rewrite hs_same. reflexivity.
                     +++ hso. rewrite Hnx2 by (apply Hsub'; exact Hz). reflexivity.
              ** intros z Hz. assert (Hzn : z <> n) by (apply Hnn; apply Hsub; exact Hz).
                 destruct (Z.eqb_spec z y) as [->|Hzy].
                 --- rewrite hs_same. reflexivity.
                 --- hso. 
                     destruct (Z.eq_dec z x) as [->|Hzx].
                     +++ hso. hso. rewrite hs_same. cbn [with_next n_prev].
                         rewrite Hnx2 by (apply Hsub'; rewrite in_app_iff; tauto). reflexivity.
                     +++ hso. rewrite Hnx2 by (apply Hsub'; rewrite in_app_iff; tauto). reflexivity.
              ** hso. rewrite hs_same. reflexivity.
              ** hso. rewrite hs_same. cbn [with_prev n_next]. rewrite hs_same. reflexivity.
              ** rewrite Hhd2, Hh0. destruct l1; reflexivity.
              ** rewrite Htl2. rewrite last_app_cons. rewrite <- Elast, Ens', last_app_cons.
                 reflexivity.
              ** exact Hpo2.
           ++ assert (Hframe' : forall z, In z (h0 :: ns0) -> z <> n).
              { intros z Hz. apply Hnn; exact Hz. }
              apply Forall2_app.
              ** apply Forall2_app; [|constructor; [|constructor]].
                 --- eapply edata_frame; [|exact Hd1'].
                     intros z Hz. assert (Hzn : z <> n) by (apply Hframe'; rewrite Ens', in_app_iff; tauto).
                     destruct (Z.eq_dec z y) as [->|Hzy].
                     +++ rewrite hs_same. cbn [with_prev n_m n_send n_let]. hso. auto.
                     +++ hso. hso. hso.
                         destruct (Z.eq_dec z x) as [->|Hzx]; [rewrite hs_same; cbn; auto|hso; auto].
                 --- unfold edata in *. hso. hso.
                     hso. rewrite hs_same. exact Hdx.
              ** constructor; [|constructor].
                 --- unfold edata in *. hso. rewrite hs_same.
                     cbn [with_prev n_m n_send n_let]. rewrite hs_same. cbn [with_next n_m n_send n_let].
                     hso. exact Hen.
                 --- unfold edata in *. rewrite hs_same. cbn [with_prev n_m n_send n_let].
                     hso. exact Hdy.
                 --- eapply edata_frame; [|exact Hd2''].
                     intros z Hz. assert (Hzn : z <> n) by (apply Hframe'; rewrite Ens', in_app_iff; cbn [In]; tauto).
                     destruct (Z.eq_dec z y) as [->|Hzy].
                     +++ rewrite hs_same. cbn [with_prev n_m n_send n_let]. hso. auto.
                     +++ hso. hso. hso.
                         destruct (Z.eq_dec z x) as [->|Hzx]; [rewrite hs_same; cbn; auto|hso; auto].
           ++ exact HI2.
           ++ exact Hperm.
           ++ exact HS'.
        -- lia.
        -- intros z Hz.
           assert (Hz' : exists f, In (z, f) (combine (l1 ++ [x]) (A' ++ [ex]))).
           { assert (Hzin : In z (l1 ++ [x])) by (destruct (l1 ++ [x]); [destruct Hz|right; exact Hz]).
             assert (Hlen : length (l1 ++ [x]) = length (A' ++ [ex])) by (rewrite !app_length, Hlen1; reflexivity).
             clear -Hzin Hlen. revert Hzin Hlen. generalize (A' ++ [ex]). induction (l1 ++ [x]) as [|w L IH]; intros M Hzin Hlen; [destruct Hzin|].
             destruct M as [|m M]; [discriminate|]. destruct Hzin as [->|Hzin]; [exists m; left; reflexivity|].
             destruct (IH M Hzin) as (f & Hf); [cbn in Hlen; lia|]. exists f. right; exact Hf. }
           destruct Hz' as (f & Hf). exists (e_ts f). split.
           ++ apply Hts. rewrite Ecomb, in_app_iff. left; exact Hf.
           ++ apply in_combine_r in Hf. rewrite <- EA in Hf. unfold A in Hf. apply filter_In in Hf. lia.
        -- exists (e_ts ey). split.
           ++ apply Hts. rewrite Ecomb, in_app_iff. right; left; reflexivity.
           ++ assert (Hin : In ey B) by (rewrite EB; left; reflexivity). unfold B in Hin. apply filter_In in Hin. lia.
        -- (* fuel *)
           assert (Hnd : NoDup (h0 :: ns0)) by (eapply nodup_app_l; exact (l_nodup _ _ _ HL1)).
           assert (Hincl : incl (h0 :: ns0) (map Z.of_nat (seq 1 (Z.to_nat (q_nalloc q2))))).
           { intros z Hz. apply in_map_iff. exists (Z.to_nat z). specialize (Hvn z Hz). rewrite <- Hal in Hvn.
             split; [lia|]. apply in_seq. lia. }
           pose proof (NoDup_incl_length Hnd Hincl) as Hl. rewrite map_length, seq_length in Hl.
           rewrite Ens', app_length in Hl. cbn [length] in Hl. lia.
Qed.
