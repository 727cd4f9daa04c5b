(** Control objects refine their specification. *)
From Coq Require Import ZifyBool.
From Verif Require Import MessageModel MessageSpec MessageProofs MessageProofs2 CtlModel CtlSpec HashProofs.

Lemma run_refines {S T} mem (step : S -> Z -> msg -> outcome (S * emits))
  (sstep : T -> Z -> list value -> option (T * list (Z * list value))) (R : S -> T -> Prop) :
  (forall s t i m vs t' ve, R s t -> values mem m = Some vs -> m_n m < 65536 -> sstep t i vs = Some (t', ve) ->
     exists s' e, step s i m = Ok (s', e) /\ R s' t' /\ emits_are mem (m_ts m) e ve) ->
  forall h hv s t t' ves, carries mem h hv -> R s t -> spec_run sstep t hv = Some (t', ves) ->
  exists s' es, obj_run step s h = Ok (s', es) /\ R s' t' /\ all_emits_are mem h es ves.
Proof.
  intros Hs. intros h hv s t t' ves HC. revert s t t' ves.
  induction HC as [|[i m] [i' vs] h hv (H1 & H2 & H3) HC IH]; intros s t t' ves HR Hrun; cbn [spec_run obj_run fst snd] in *.
  - injection Hrun as <- <-. exists s, []. split; [reflexivity|]. split; [exact HR|].
    split; [reflexivity|]. split; [reflexivity|]. intros [|k]; discriminate.
  - subst i'. destruct (sstep t i vs) as [[t1 ve]|] eqn:E; [|discriminate].
    destruct (spec_run sstep t1 hv) as [[t2 ves2]|] eqn:E2; [|discriminate]. injection Hrun as <- <-.
    destruct (Hs s t i m vs t1 ve HR H2 H3 E) as (s1 & e & S1 & S2 & S3).
    destruct (IH s1 t1 t2 ves2 S2 E2) as (s2 & es & R1 & R2 & R3 & R4 & R5).
    exists s2, (e :: es). rewrite S1. cbn [obind]. rewrite R1. cbn [obind].
    split; [reflexivity|]. split; [exact R2|]. split; [cbn; lia|]. split; [cbn; lia|].
    intros [|k] i0 m0 e0 ve0 A B C; cbn [nth_error] in *.
    + injection A as <- <-. injection B as <-. injection C as <-. exact S3.
    + eapply R5; eassumption.
Qed.

Lemma values_len mem m vs : values mem m = Some vs -> zlen vs = m_n m /\ 0 < m_n m <= zlen (m_el m).
Proof.
  intros H. apply values_spec in H as (Hn & H). split; [|exact Hn].
  apply values_of_length in H. unfold zlen in *. rewrite H, firstn_length. lia.
Qed.

Lemma values_of_firstn mem l : forall k vs, values_of mem l = Some vs -> values_of mem (firstn k l) = Some (firstn k vs).
Proof.
  induction l as [|[e|] l IH]; intros [|k] vs H; cbn [firstn values_of] in *; try (injection H as <-); try reflexivity; try discriminate.
  destruct (value_of mem e) as [v|]; [|discriminate]. destruct (values_of mem l) as [vs'|]; [|discriminate].
  injection H as <-. rewrite (IH k vs' eq_refl). reflexivity.
Qed.
Lemma values_of_skipn mem l : forall k vs, values_of mem l = Some vs -> values_of mem (skipn k l) = Some (skipn k vs).
Proof.
  induction l as [|[e|] l IH]; intros [|k] vs H; cbn [skipn values_of] in *; try (injection H as <-); try reflexivity; try discriminate; try exact H.
  destruct (value_of mem e) as [v|]; [|discriminate]. destruct (values_of mem l) as [vs'|]; [|discriminate].
  injection H as <-. cbn [skipn]. apply IH. reflexivity.
Qed.

Lemma values_of_firstn_more mem l k j vs : values_of mem (firstn k l) = Some vs -> (j <= k)%nat ->
  values_of mem (firstn j l) = Some (firstn j vs).
Proof.
  intros H Hj. apply (values_of_firstn mem _ j) in H. rewrite firstn_firstn in H. rewrite Nat.min_l in H by exact Hj. exact H.
Qed.

(** Elements and their values. *)
Lemma values_elem mem m vs i v : values mem m = Some vs -> 0 <= i -> nth_error vs (Z.to_nat i) = Some v ->
  i < m_n m /\ exists e, get_elem m i = Ok e /\ value_of mem e = Some v.
Proof.
  intros H Hi Hn. pose proof (values_len _ _ _ H) as (Hl & _).
  assert (i < m_n m).
  { assert (Z.to_nat i < length vs)%nat by (apply nth_error_Some; congruence). unfold zlen in Hl. lia. }
  split; [assumption|]. destruct (values_get mem m vs i H ltac:(lia)) as (e & v' & A & B & C).
  exists e. split; [exact A|]. congruence.
Qed.
Lemma value_kind mem e v : value_of mem e = Some v ->
  match e, v with
  | Bang, VBang => True
  | Flt b, VFloat b' => b' = b
  | Sym p, VSymbol s => cstr mem p = Ok s
  | Hsh h, VHash h' => h' = h
  | _, _ => False
  end.
Proof.
  destruct e; cbn [value_of].
  - intros [= <-]. exact I.
  - intros [= <-]. reflexivity.
  - destruct (cstr mem p) eqn:E; try discriminate. intros [= <-]. reflexivity.
  - intros [= <-]. reflexivity.
Qed.
Lemma values_single mem ts nb e v : value_of mem e = Some v -> values mem (mkMsg ts 1 nb [Some e]) = Some [v].
Proof. intros H. unfold values. change (values_of mem [Some e] = Some [v]). cbn [values_of]. rewrite H. reflexivity. Qed.

Lemma getHash_key mem m vs i v : values mem m = Some vs -> 0 <= i -> nth_error vs (Z.to_nat i) = Some v ->
  msg_getHash mem m i = Ok (key v).
Proof.
  intros H Hi Hn. destruct (values_elem _ _ _ _ _ H Hi Hn) as (_ & e & A & B).
  unfold msg_getHash. rewrite A. cbn [obind]. apply value_kind in B. destruct e, v; try contradiction; cbn [key]; subst; try reflexivity.
  rewrite B. reflexivity.
Qed.
Lemma hd_nth {A} (l : list A) : hd_error l = nth_error l 0.
Proof. destruct l; reflexivity. Qed.

(** ** slice *)
Lemma window_nil i n vs : 0 <= i -> (window i n vs = [] <-> zlen vs <= i).
Proof.
  intros Hi. unfold window, zlen. pose proof (skipn_length (Z.to_nat i) vs) as Hs.
  split.
  - intros H. destruct (0 <? n) eqn:E.
    + apply (f_equal (@length value)) in H. rewrite firstn_length in H. cbn [length] in H. lia.
    + rewrite H in Hs. cbn [length] in Hs. lia.
  - intros H. assert (skipn (Z.to_nat i) vs = []) as -> by (apply skipn_all2; lia). destruct (0 <? n); [apply firstn_nil|reflexivity].
Qed.
Lemma bang_emit mem ts : emits_are mem ts [(1, mkMsg ts 1 24 [Some Bang])] [(1, [VBang])].
Proof. constructor; [|constructor]. split; [reflexivity|]. split; [apply values_single|]; reflexivity. Qed.

Lemma slice_hot_ok mem o m vs : values mem m = Some vs -> m_n m < 65536 -> 0 <= sl_i o ->
  exists e, slice_hot o m = Ok e /\
  match window (sl_i o) (sl_n o) vs with
  | [] => emits_are mem (m_ts m) e [(1, [VBang])]
  | w => emits_are mem (m_ts m) e [(0, w)] /\
         exists n, e = [(0, n)] /\ m_nb n = u16 (8 + 16 * zlen w) /\ m_n n = zlen w /\ m_n n = zlen (m_el n)
  end.
Proof.
  intros H Hn Hi. pose proof (values_len _ _ _ H) as (Hl & Hm). unfold slice_hot.
  destruct (sl_i o <? m_n m) eqn:E.
  - assert (Hw : window (sl_i o) (sl_n o) vs <> []) by (intros C; apply window_nil in C; lia).
    destruct (window (sl_i o) (sl_n o) vs) as [|w0 w] eqn:Ew; [congruence|]. clear Hw.
    set (x0 := m_n m - sl_i o). set (x := if 0 <? sl_n o then Z.min x0 (sl_n o) else x0).
    assert (Hx : 0 < x <= x0) by (subst x x0; destruct (0 <? sl_n o) eqn:E2; lia). cbv zeta. fold x.
    unfold msg_getCoreSize. assert (0 <? x = true) as -> by lia. cbn [obind].
    assert ((0 <=? sl_i o) && (sl_i o + x <=? zlen (m_el m)) = true) as -> by (unfold x0 in Hx; lia).
    eexists. split; [reflexivity|].
    assert (Hxw : window (sl_i o) (sl_n o) vs = firstn (Z.to_nat x) (skipn (Z.to_nat (sl_i o)) vs)).
    { unfold window, x. destruct (0 <? sl_n o) eqn:E2.
      - destruct (Z.le_gt_cases (sl_n o) x0).
        + rewrite Z.min_r by lia. reflexivity.
        + rewrite Z.min_l by lia. rewrite !firstn_all2; [reflexivity| |]; rewrite skipn_length; unfold x0, zlen in *; lia.
      - rewrite firstn_all2; [reflexivity|]. rewrite skipn_length; unfold x0, zlen in *; lia. }
    assert (Hzx : zlen (w0 :: w) = x).
    { rewrite <- Ew, Hxw. unfold zlen. rewrite firstn_length, skipn_length. unfold x0, zlen in *. lia. }
    assert (Hels : zlen (firstn (Z.to_nat x) (skipn (Z.to_nat (sl_i o)) (m_el m))) = x).
    { unfold zlen. rewrite firstn_length, skipn_length. unfold x0, zlen in *. lia. }
    assert (Hux : u16 x = x) by (apply u16_id; unfold x0 in Hx; lia).
    split.
    + constructor; [|constructor]. cbn [fst snd m_ts]. split; [reflexivity|]. split; [|reflexivity].
      unfold values. cbn [m_n m_el]. rewrite Hux, Hels.
      assert ((0 <? x) && (x <=? x) = true) as -> by lia.
      rewrite firstn_firstn, Nat.min_id. rewrite <- Ew, Hxw.
      apply values_spec in H as (_ & H).
      apply (values_of_skipn _ _ (Z.to_nat (sl_i o))) in H. rewrite skipn_firstn_comm in H.
      apply values_of_firstn_more with (k := (Z.to_nat (m_n m) - Z.to_nat (sl_i o))%nat); [exact H|unfold x0 in Hx; lia].
    + eexists. split; [reflexivity|]. cbn [m_nb m_n m_el]. rewrite Hels, Hux, Hzx.
      split; [|split; reflexivity]. f_equal. unfold core. lia.
  - cbn. eexists. split; [reflexivity|]. assert (window (sl_i o) (sl_n o) vs = []) as -> by (apply window_nil; lia).
    apply bang_emit.
Qed.

Lemma int_elem_ok f2i mem m vs i : values mem m = Some vs -> 0 <= i ->
  int_elem f2i m i = match nth_error vs (Z.to_nat i) with
                     | Some (VFloat b) => match f2i b with Some v => Ok (Some v) | None => UB end
                     | _ => Ok None
                     end.
Proof.
  intros H Hi. unfold int_elem, test_elem. destruct (nth_error vs (Z.to_nat i)) as [v|] eqn:E.
  - destruct (values_elem _ _ _ _ _ H Hi E) as (Hlt & e & A & B). assert (i <? m_n m = true) as -> by lia.
    rewrite A. cbn [obind]. apply value_kind in B. destruct e, v; try contradiction; cbn [is_f]; subst; try reflexivity.
  - apply nth_error_None in E. pose proof (values_len _ _ _ H) as (Hl & _). unfold zlen in Hl.
    assert (i <? m_n m = false) as -> by lia. reflexivity.
Qed.

Lemma slice_step f2i mem s t i m vs t' ve : s = mkSlice (fst t) (snd t) -> values mem m = Some vs -> m_n m < 65536 ->
  slice_spec f2i t i vs = Some (t', ve) ->
  exists s' e, cSlice_onMessage f2i s i m = Ok (s', e) /\ s' = mkSlice (fst t') (snd t') /\ emits_are mem (m_ts m) e ve.
Proof.
  intros -> H Hn Hs. destruct t as [a n]. cbn [fst snd] in *. unfold slice_spec in Hs. unfold cSlice_onMessage.
  pose proof (values_len _ _ _ H) as (Hl & _).
  rewrite !(int_elem_ok f2i mem m vs) by (assumption || lia).
  change (Z.to_nat 0) with 0%nat. change (Z.to_nat 1) with 1%nat.
  destruct (Z.eqb_spec i 0) as [-> | N0].
  { destruct (a <? 0) eqn:Ea; [discriminate|].
    destruct (slice_hot_ok mem (mkSlice a n) m vs H Hn) as (e & A & B); [cbn; lia|]. cbn [sl_i sl_n] in B.
    rewrite A. cbn [obind].
    destruct (window a n vs) as [|w0 w] eqn:Ew; injection Hs as <- <-; exists (mkSlice a n), e;
      (split; [reflexivity|]; split; [reflexivity|]); [exact B|exact (proj1 B)]. }
  assert (Hnil : emits_are mem (m_ts m) [] []) by constructor.
  destruct (Z.eqb_spec i 1) as [-> | N1].
  { destruct vs as [|v vs]; [unfold zlen in Hl; cbn in Hl; injection Hs as <- <-; eexists _, _; repeat split; exact Hnil|].
    cbn [nth_error].
    destruct v as [|x| |]; try (injection Hs as <- <-; eexists _, _; repeat split; exact Hnil).
    destruct vs as [|v2 vs]; cbn [nth_error]; [|destruct v2 as [|y| |]];
      try (destruct (f2i x) as [xi|]; [|discriminate]; injection Hs as <- <-; cbn [obind]; eexists _, _; repeat split; exact Hnil).
    destruct (f2i x) as [xi|]; [|discriminate]. destruct (f2i y) as [yi|]; [|discriminate].
    injection Hs as <- <-. cbn [obind]. eexists _, _; repeat split; exact Hnil. }
  destruct (Z.eqb_spec i 2) as [-> | N2].
  { destruct vs as [|v vs]; [injection Hs as <- <-; eexists _, _; repeat split; exact Hnil|].
    cbn [nth_error]. destruct v as [|y| |]; try (injection Hs as <- <-; eexists _, _; repeat split; exact Hnil).
    destruct (f2i y) as [yi|]; [|discriminate]. injection Hs as <- <-. eexists _, _; repeat split; exact Hnil. }
  assert (Hother : Some ((a, n), []) = Some (t', ve)).
  { rewrite <- Hs. destruct i as [|[p|[p|p|]|]|p]; try lia; try reflexivity; destruct vs as [|[] ?]; try reflexivity. }
  injection Hother as <- <-. eexists _, _; repeat split; exact Hnil.
Qed.
