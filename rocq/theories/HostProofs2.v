From Verif Require Import HostModel HostSpec MessageSpec MessageProofs MessageProofs2 PipeProofs PipeProofs2 HostProofs.
Require Import ZifyBool.

Lemma load_n_spec s k : forall a, 0 <= a -> (0 < k)%nat ->
  load_n s a k = if a + Z.of_nat k <=? len s then Ok (map (fun i => buf s (a + Z.of_nat i)) (seq 0 k)) else UB.
Proof.
  induction k as [|k IH]; intros a Ha Hk; [lia|]. cbn [load_n]. unfold load8, in_buf.
  destruct k as [|k].
  - cbn [load_n obind seq map]. replace (a + Z.of_nat 1) with (a + 1) by lia.
    destruct (a + 1 <=? len s) eqn:E; [|rewrite andb_false_r; reflexivity].
    assert (0 <=? a = true) as -> by lia. cbn [andb obind]. rewrite Z.add_0_r. reflexivity.
  - rewrite IH by lia. destruct (a + Z.of_nat (S (S k)) <=? len s) eqn:E.
    + assert ((0 <=? a) && (a + 1 <=? len s) = true) as -> by lia. assert (a + 1 + Z.of_nat (S k) <=? len s = true) as -> by lia.
      cbn [obind]. f_equal. change (seq 0 (S (S k))) with (0%nat :: seq 1 (S k)). rewrite <- seq_shift. cbn [map]. rewrite Z.add_0_r. f_equal. rewrite map_map.
      apply map_ext. intros i. f_equal. lia.
    + assert (a + 1 + Z.of_nat (S k) <=? len s = false) as -> by lia. destruct ((0 <=? a) && (a + 1 <=? len s)); reflexivity.
Qed.

Lemma bytes_at_map m a r : bytes_at m a r (length r) -> map (fun i => m (a + Z.of_nat i)) (seq 0 (length r)) = r.
Proof.
  intros H. apply nth_ext with (d := 0) (d' := 0); [rewrite map_length, seq_length; reflexivity|].
  intros i Hi. rewrite map_length, seq_length in Hi. rewrite <- H by exact Hi.
  rewrite (nth_indep _ 0 (m (a + Z.of_nat 0%nat))) by (rewrite map_length, seq_length; exact Hi).
  rewrite (map_nth (fun i => m (a + Z.of_nat i)) (seq 0 (length r)) 0%nat). rewrite seq_nth by exact Hi. reflexivity.
Qed.

Lemma loop_inv s bk : Inv s (Some (rh s)) [] bk -> cp s = C_idle -> Inv (set_rh s 0) None bk [].
Proof.
  intros (HL & HP & HC) Hc. destruct HL as (H1 & H2 & H3 & H4 & H5 & H6 & H7 & H8 & H9 & H10 & H11 & H12).
  split; [|split].
  - unfold lay. cbn [set_rh rh len buf]. change (cw (set_rh s 0)) with (cw s).
    repeat (split; [first [assumption|lia|reflexivity]|]). assumption.
  - unfold pinv in *. cbn [set_rh pp rh len buf wh rem]. destruct (pp s).
    + exact HP.
    + exact HP.
    + destruct HP as (P1 & P2 & P3 & P4 & P5). repeat (split; [assumption|]). destruct (wh s <? rhs); [exact I|destruct P5; discriminate].
    + destruct HP as (_ & HP & _). discriminate.
    + destruct HP as (_ & HP & _). discriminate.
    + destruct HP as (P1 & P2 & P3 & P4 & P5). repeat (split; [assumption|]). split; [congruence|exact P5].
    + destruct HP as (P1 & P2 & P3 & P4 & P5). repeat (split; [assumption|]). split; [congruence|exact P5].
    + destruct HP as (P1 & P2 & P3 & P4 & P5 & P6). repeat (split; [assumption|]). split; [congruence|exact P6].
  - unfold cinv in *. cbn [set_rh cp sent recv]. rewrite Hc in *. rewrite app_nil_r. exact HC.
Qed.

Lemma take_inv s w r t bk : Inv s w (r :: t) bk -> cp s = C_idle -> Inv (set_rh (log_recv s r) (rh s + 4 + zlen r)) w t bk.
Proof.
  intros (HL & HP & HC) Hc. pose proof (front_facts _ _ _ _ _ HL) as ((G1 & G2 & G3) & F2 & F3 & F4).
  destruct HL as (H1 & H2 & H3 & H4 & H5 & H6 & H7 & H8).
  split; [|split].
  - unfold lay. cbn [set_rh log_recv rh len buf]. change (cw (set_rh (log_recv s r) (rh s + 4 + zlen r))) with (cw s).
    split; [lia|]. do 3 (split; [assumption|]). split; [Z.div_mod_to_equations; lia|]. split; [assumption|]. split; [assumption|].
    destruct w as [e|].
    + destruct H8 as (A1 & A2 & A3 & A4 & A5). cbn [seg] in A2. destruct A2 as (_ & _ & _ & A2). split; [lia|]. auto.
    + destruct H8 as (A1 & A2). cbn [seg] in A2. destruct A2 as (_ & _ & _ & A2). auto.
  - unfold pinv in *. cbn [set_rh log_recv pp rh len buf wh rem]. destruct (pp s).
    + exact HP.
    + exact HP.
    + destruct HP as (P1 & P2 & P3 & P4 & P5). repeat (split; [assumption|]). destruct (wh s <? rhs); [destruct w; [lia|exact I]|]. destruct P5. split; [assumption|lia].
    + destruct HP as (P1 & P2 & P3 & P4 & P5). repeat (split; [assumption|]). lia.
    + destruct HP as (P1 & P2 & P3 & P4 & P5 & P6). repeat (split; [assumption|]). split; [lia|exact P6].
    + destruct HP as (P1 & P2 & P3 & P4 & P5). repeat (split; [assumption|]). split; [|exact P5]. intros Hw. specialize (P4 Hw). lia.
    + destruct HP as (P1 & P2 & P3 & P4 & P5). repeat (split; [assumption|]). split; [|exact P5]. intros Hw. specialize (P4 Hw). lia.
    + destruct HP as (P1 & P2 & P3 & P4 & P5 & P6). repeat (split; [assumption|]). split; [|exact P6]. intros Hw. specialize (P5 Hw). lia.
  - unfold cinv in *. cbn [set_rh log_recv cp sent recv]. rewrite Hc in *. rewrite HC. rewrite <- app_assoc. reflexivity.
Qed.

(** The part of [get_next] after the position of the next record is known. *)
Definition take (s1 : pipe) (maxlen : Z) : outcome (option (Z * bytes) * pipe) :=
  let! n := load32 s1 (rh s1) in
  if n =? 0 then Ok (None, s1) else
  assert! 32 <=? n in
  assert! n <=? maxlen in
  let! h := load32 s1 (rh s1 + 4) in
  let! out := load_n s1 (rh s1 + 4 + 8) (Z.to_nat n) in
  let! r := load_n s1 (rh s1 + 4) (Z.to_nat n) in
  Ok (Some (h, out), set_rh (log_recv s1 r) (rh s1 + 4 + n)).

Lemma take_front s w r t bk maxlen : Inv s w (r :: t) bk -> cp s = C_idle -> 32 <= zlen r ->
  if zlen r <=? maxlen then
    if rh s + 4 + zlen r + 8 <=? len s then
      exists out, take s maxlen = Ok (Some (unle (firstn 4 r), out), set_rh (log_recv s r) (rh s + 4 + zlen r)) /\
        zlen out = zlen r /\ firstn (length r - 8) out = skipn 8 r
    else take s maxlen = UB
  else take s maxlen = AssertFail.
Proof.
  intros HI Hc H32. pose proof HI as (HL & _ & _). pose proof (front_facts _ _ _ _ _ HL) as ((G1 & G2 & G3) & F2 & F3 & F4).
  assert (Hrh : 0 <= rh s) by (destruct HL; assumption).
  unfold take, load32. rewrite in_buf_true by lia. cbn [obind]. rewrite F2.
  assert (zlen r =? 0 = false) as -> by lia. assert (32 <=? zlen r = true) as -> by lia.
  destruct (zlen r <=? maxlen); [|reflexivity]. rewrite in_buf_true by lia. cbn [obind].
  assert (Hk : Z.to_nat (zlen r) = length r) by (unfold zlen; lia). rewrite Hk.
  assert (Hlr : (32 <= length r)%nat) by (unfold zlen in H32; lia).
  rewrite !load_n_spec by lia.
  assert (rh s + 4 + Z.of_nat (length r) <=? len s = true) as -> by (unfold zlen in *; lia).
  replace (rh s + 4 + 8 + Z.of_nat (length r)) with (rh s + 4 + zlen r + 8) by (unfold zlen; lia).
  destruct (rh s + 4 + zlen r + 8 <=? len s) eqn:E; [|reflexivity]. cbn [obind].
  rewrite (bytes_at_map _ _ _ F3). eexists. split; [|split].
  - f_equal. f_equal. f_equal. f_equal. unfold rd32.
    pose proof (F3 0%nat ltac:(lia)) as B0. pose proof (F3 1%nat ltac:(lia)) as B1. pose proof (F3 2%nat ltac:(lia)) as B2. pose proof (F3 3%nat ltac:(lia)) as B3.
    replace (rh s + 4 + Z.of_nat 0) with (rh s + 4) in B0 by lia. replace (rh s + 4 + Z.of_nat 1) with (rh s + 4 + 1) in B1 by lia.
    replace (rh s + 4 + Z.of_nat 2) with (rh s + 4 + 2) in B2 by lia. replace (rh s + 4 + Z.of_nat 3) with (rh s + 4 + 3) in B3 by lia.
    rewrite B0, B1, B2, B3. destruct r as [|b0 [|b1 [|b2 [|b3 r]]]]; cbn [length] in Hlr; try lia. cbn [nth firstn unle]. lia.
  - unfold zlen. rewrite map_length, seq_length. reflexivity.
  - apply nth_ext with (d := 0) (d' := 0).
    + rewrite firstn_length, map_length, seq_length, skipn_length. lia.
    + intros i Hi. rewrite firstn_length, map_length, seq_length in Hi.
      assert (Hsk : forall (l : list Z) k j, nth j (skipn k l) 0 = nth (k + j) l 0).
      { clear. intros l k. revert l. induction k as [|k IH]; intros l j; [reflexivity|]. destruct l as [|x l]; [destruct j; reflexivity|]. cbn [skipn Nat.add nth]. apply IH. }
      rewrite Hsk. rewrite <- F3 by lia.
      assert (Hfn : forall (l : list Z) k j, (j < k)%nat -> nth j (firstn k l) 0 = nth j l 0).
      { clear. intros l. induction l as [|x l IH]; intros k j Hj; [rewrite firstn_nil; reflexivity|]. destruct k as [|k]; [lia|]. destruct j as [|j]; [reflexivity|]. cbn [firstn nth]. apply IH. lia. }
      rewrite Hfn by lia.
      rewrite (nth_indep _ 0 (buf s (rh s + 4 + 8 + Z.of_nat 0%nat))) by (rewrite map_length, seq_length; lia).
      rewrite (map_nth (fun i => buf s (rh s + 4 + 8 + Z.of_nat i)) (seq 0 (length r)) 0%nat). rewrite seq_nth by lia. f_equal. lia.
Qed.

Section Get.
Context (base : Z) (Hbase : 0 < base < 18446744073709000000).

Lemma HInv_keep s s' seen acc w f bk : HInv base s seen acc -> Inv s' w f bk -> pp s' = pp s -> sent s' = sent s -> HInv base s' seen acc.
Proof. intros (_ & HF & HS & P) HI Hp Hs. split; [eauto|]. rewrite Hp, Hs. auto. Qed.

Lemma in_rec32 recs acc r : Forall2 is_rec recs acc -> Forall (sendable base) acc -> In r recs -> 32 <= zlen r.
Proof. intros HF HS. destruct (recs_found base Hbase recs acc HF HS) as (_ & H). rewrite Forall_forall in H. apply H. Qed.

Lemma get_next_spec s seen acc maxlen : HInv base s seen acc -> cp s = C_idle ->
  match get_next s maxlen with
  | Ok (None, s') => recv s = sent s /\ HInv base s' seen acc /\ recv s' = recv s /\ sent s' = sent s /\ cp s' = C_idle /\ len s' = len s
  | Ok (Some (h, out), s') => exists r rest, sent s = recv s ++ r :: rest /\ HInv base s' seen acc /\ recv s' = recv s ++ [r] /\
       sent s' = sent s /\ cp s' = C_idle /\ len s' = len s /\ h = unle (firstn 4 r) /\ zlen out = zlen r /\ firstn (length r - 8) out = skipn 8 r
       /\ zlen r <= maxlen /\ next_pos s + 4 + zlen r + 8 <= len s
  | AssertFail => exists r, next_record s r /\ maxlen < zlen r
  | UB => exists r, next_record s r /\ zlen r <= maxlen /\ len s < next_pos s + 4 + zlen r + 8
  end.
Proof.
  intros HH Hc. pose proof HH as ((w & f & bk & HI) & HF & HFS & _).
  assert (Front : forall s1 w1 r t bk1, Inv s1 w1 (r :: t) bk1 -> cp s1 = C_idle -> sent s1 = sent s -> recv s1 = recv s -> pp s1 = pp s ->
     len s1 = len s -> rh s1 = next_pos s ->
     match take s1 maxlen with
     | Ok (None, s') => recv s = sent s /\ HInv base s' seen acc /\ recv s' = recv s /\ sent s' = sent s /\ cp s' = C_idle /\ len s' = len s
     | Ok (Some (h, out), s') => exists r rest, sent s = recv s ++ r :: rest /\ HInv base s' seen acc /\ recv s' = recv s ++ [r] /\
          sent s' = sent s /\ cp s' = C_idle /\ len s' = len s /\ h = unle (firstn 4 r) /\ zlen out = zlen r /\ firstn (length r - 8) out = skipn 8 r
          /\ zlen r <= maxlen /\ next_pos s + 4 + zlen r + 8 <= len s
     | AssertFail => exists r, next_record s r /\ maxlen < zlen r
     | UB => exists r, next_record s r /\ zlen r <= maxlen /\ len s < next_pos s + 4 + zlen r + 8
     end).
  { intros s1 w1 r t bk1 HI1 Hc1 Hs1 Hr1 Hp1 Hl1 Hrh1.
    assert (Hsent : sent s = recv s ++ r :: (t ++ bk1)).
    { pose proof HI1 as (_ & _ & C). unfold cinv in C. rewrite Hc1 in C. rewrite <- Hs1, <- Hr1, C. reflexivity. }
    assert (H32 : 32 <= zlen r) by (eapply in_rec32; [exact HF|exact HFS|]; rewrite Hsent; apply in_or_app; right; left; reflexivity).
    pose proof (take_front s1 w1 r t bk1 maxlen HI1 Hc1 H32) as T. rewrite Hrh1, Hl1 in T.
    destruct (zlen r <=? maxlen) eqn:E1; [destruct (next_pos s + 4 + zlen r + 8 <=? len s) eqn:E2|].
    - destruct T as (out & -> & T1 & T2). exists r, (t ++ bk1). split; [exact Hsent|].
      pose proof (take_inv s1 w1 r t bk1 HI1 Hc1) as HI2. rewrite Hrh1 in HI2.
      split; [|cbn [set_rh log_recv recv sent cp len]; rewrite Hr1, Hs1; repeat (split; [first [assumption|reflexivity|lia]|]); lia].
      eapply HInv_keep; [exact HH|exact HI2|exact Hp1|exact Hs1].
    - rewrite T. exists r. split; [exists (t ++ bk1); exact Hsent|]. split; lia.
    - rewrite T. exists r. split; [exists (t ++ bk1); exact Hsent|]. lia. }
  assert (Empty : forall s1 w1, Inv s1 w1 [] [] -> cp s1 = C_idle -> sent s1 = sent s -> recv s1 = recv s -> pp s1 = pp s -> len s1 = len s ->
     rd32 (buf s1) (rh s1) = 0 -> rh s1 + 4 <= len s1 ->
     match take s1 maxlen with Ok (None, s') => recv s = sent s /\ HInv base s' seen acc /\ recv s' = recv s /\ sent s' = sent s /\ cp s' = C_idle /\ len s' = len s | _ => False end).
  { intros s1 w1 HI1 Hc1 Hs1 Hr1 Hp1 Hl1 Hz Hle. unfold take, load32. pose proof HI1 as ((L1 & _) & _ & C).
    rewrite in_buf_true by lia. cbn [obind]. rewrite Hz, Z.eqb_refl. unfold cinv in C. rewrite Hc1, app_nil_r in C.
    split; [congruence|]. split; [eapply HInv_keep; [exact HH|exact HI1|exact Hp1|exact Hs1]|]. auto. }
  unfold get_next. pose proof HI as (HL & _ & _). pose proof HL as (H1 & H2 & H3 & H4 & H5 & H6 & H7 & H8).
  destruct f as [|r f].
  - destruct w as [e|].
    + destruct H8 as (A1 & A2 & A3 & A4 & A5). cbn [seg] in A2. subst e. unfold load32 at 1. rewrite in_buf_true by lia. cbn [obind].
      rewrite A4, Z.eqb_refl. pose proof (loop_inv s bk HI Hc) as HI1. change (let! n := load32 (set_rh s 0) (rh (set_rh s 0)) in _) with (take (set_rh s 0) maxlen).
      destruct bk as [|r bk].
      * cbn [seg] in A5. pose proof (Empty (set_rh s 0) None HI1 Hc eq_refl eq_refl eq_refl eq_refl) as T. cbn [set_rh buf rh len] in T.
        rewrite A5 in T at 1. specialize (T H4 ltac:(lia)). unfold set_rh. destruct (take _ maxlen) as [[[[h out]|] s']| |]; try contradiction. exact T.
      * apply (Front (set_rh s 0) None r bk [] HI1 Hc eq_refl eq_refl eq_refl eq_refl). unfold next_pos. rewrite A4. reflexivity.
    + destruct H8 as (A1 & A2). subst bk. cbn [seg] in A2. unfold load32 at 1. rewrite in_buf_true by lia. cbn [obind].
      assert (Hz : rd32 (buf s) (rh s) = 0) by (rewrite A2; exact H4).
      pose proof (Empty s None HI Hc eq_refl eq_refl eq_refl eq_refl Hz ltac:(lia)) as T.
      rewrite Hz. change (0 =? HLP_LOOP) with false. cbv iota.
      change (let! n := load32 s (rh s) in _) with (take s maxlen).
      destruct (take s maxlen) as [[[[h out]|] s']| |]; try contradiction. exact T.
  - pose proof (front_facts _ _ _ _ _ HL) as ((G1 & G2 & G3) & F2 & F3 & F4). unfold load32 at 1. rewrite in_buf_true by lia. cbn [obind].
    assert (rd32 (buf s) (rh s) =? HLP_LOOP = false) as E by (rewrite F2; unfold HLP_LOOP; lia). rewrite E.
    change (let! n := load32 s (rh s) in _) with (take s maxlen).
    apply (Front s w r f bk HI Hc eq_refl eq_refl eq_refl eq_refl). unfold next_pos. rewrite E. reflexivity.
Qed.
End Get.
