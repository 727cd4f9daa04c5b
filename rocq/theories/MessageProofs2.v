From Verif Require Import MessageModel MessageSpec MessageProofs.
Require Import ZifyBool.

Lemma values_spec mem m vs : values mem m = Some vs ->
  0 < m_n m <= zlen (m_el m) /\ values_of mem (firstn (Z.to_nat (m_n m)) (m_el m)) = Some vs.
Proof. unfold values. destruct ((0 <? m_n m) && (m_n m <=? zlen (m_el m))) eqn:E; [|discriminate]. intros; split; [lia|assumption]. Qed.

Lemma values_of_length mem l vs : values_of mem l = Some vs -> length vs = length l.
Proof.
  revert vs; induction l as [|[e|] l IH]; intros vs H; cbn [values_of] in H; try discriminate; [injection H as <-; reflexivity|].
  destruct (value_of mem e); [|discriminate]. destruct (values_of mem l) as [w|]; [|discriminate]. injection H as <-.
  cbn [length]. rewrite (IH w); reflexivity.
Qed.

Lemma needed_core vs : 0 < zlen vs -> needed vs = core (zlen vs) + texts vs.
Proof. unfold needed, core, texts. lia. Qed.

Lemma firstn_all_Z {A} (l : list A) n : n = zlen l -> firstn (Z.to_nat n) l = l.
Proof. intros ->. unfold zlen. rewrite Nat2Z.id. apply firstn_all. Qed.

Lemma copy_at mem m a len vs :
  msg_ok m -> values mem m = Some vs -> 0 < a -> a + len <= zlen mem -> zlen mem < 18446744073709551616 ->
  symbols_outside mem m a (a + len) -> needed vs <= len -> needed vs < 65536 ->
  exists mem' m', msg_copyToBuffer mem m a len = Ok mem' /\
    (at_ mem' a (enc_core m') /\ m_n m' = zlen (m_el m') /\ all_set (m_el m')) /\
    m_ts m' = m_ts m /\ m_n m' = m_n m /\ m_nb m' = needed vs /\ values mem' m' = Some vs /\
    symbols_inside mem' m' (a + core (m_n m)) (a + needed vs) /\
    same_outside mem mem' a (a + needed vs).
Proof.
  intros (Ht & Hn & Hnb & Hels) Hv Ha Hal H64 Hout Hlen H16.
  apply values_spec in Hv as (Hn2 & Hv). unfold msg_copyToBuffer, msg_getCoreSize.
  set (els := firstn (Z.to_nat (m_n m)) (m_el m)) in *.
  assert (Hle : zlen els = m_n m) by (unfold els, zlen in *; rewrite firstn_length; lia).
  pose proof (values_of_length _ _ _ Hv) as Hvl. assert (Hvz : zlen vs = m_n m) by (unfold zlen in *; lia).
  rewrite needed_core in * by lia. rewrite Hvz in *. pose proof (texts_nonneg vs) as Htn.
  assert (0 <? m_n m = true) as -> by lia. cbn [obind].
  assert (core (m_n m) <=? len = true) as -> by lia. rewrite Hle, Z.eqb_refl.
  set (m0 := mkMsg (m_ts m) (m_n m) (m_nb m) els).
  assert (Hc : core (m_n m) = 8 + 16 * m_n m) by (unfold core; lia).
  assert (Hel0 : zlen (enc_core m0) = core (m_n m)) by (rewrite enc_core_length; cbn [m0 m_el]; lia).
  destruct (store_ok mem a (enc_core m0)) as (mem0 & Es0); [lia|lia|]. rewrite Es0. cbn [obind].
  apply store_spec in Es0 as (_ & _ & _ & HS0). rewrite Hel0 in HS0.
  assert (Hout' : forall p s, In (Some (Sym p)) els -> cstr mem p = Ok s -> p + zlen s < a \/ a + len <= p).
  { intros p s Hp. apply Hout. unfold els in Hp. rewrite <- (firstn_skipn (Z.to_nat (m_n m)) (m_el m)). apply in_or_app. left; exact Hp. }
  assert (Hv0 : values_of mem0 els = Some vs).
  { eapply values_of_same; [exact HS0| |exact Hv]. intros p s Hp Hs. destruct (Hout' p s Hp Hs); [left; lia|right; lia]. }
  assert (Hel : Forall elem_ok els).
  { rewrite <- (firstn_skipn (Z.to_nat (m_n m)) (m_el m)) in Hels. apply Forall_app in Hels. tauto. }
  destruct (copy_syms_ok (a + len) els mem0 len (core (m_n m)) (a + core (m_n m)) vs) as (mem1 & els' & C1 & C2 & C3 & C4 & C5 & C6).
  - exact Hv0.
  - lia.
  - lia.
  - lia.
  - unfold zlen. rewrite <- (proj1 HS0). exact Hal.
  - unfold zlen. rewrite <- (proj1 HS0). exact H64.
  - intros q s Hin Hc0.
    assert (G : exists s1, cstr mem q = Ok s1).
    { clear - Hv Hin. revert vs Hv. induction els as [|[e|] l IH]; intros vs Hv; cbn [values_of] in Hv; try discriminate; [destruct Hin|].
      destruct (value_of mem e) as [v|] eqn:Ev; [|discriminate]. destruct (values_of mem l) as [w|] eqn:Ew; [|discriminate].
      destruct Hin as [Hin|Hin]; [|eapply IH; [exact Hin|reflexivity]]. injection Hin as ->. cbn in Ev.
      destruct (cstr mem q) as [s1| |]; try discriminate. eauto. }
    destruct G as (s1 & Hs1). pose proof (Hout' q s1 Hin Hs1) as Hd1.
    assert (Hc1 : cstr mem0 q = Ok s1) by (eapply cstr_same; [exact HS0| |exact Hs1]; lia).
    assert (s1 = s) by congruence. subst s1. lia.
  - exact Hel.
  - rewrite C1. cbn [obind].
    set (m' := mkMsg (m_ts m) (m_n m) (u16 (core (m_n m) + texts vs)) els').
    assert (Hl' : zlen els' = m_n m) by (unfold zlen in *; lia).
    assert (Helc : zlen (enc_core m') = core (m_n m)) by (rewrite enc_core_length; cbn [m' m_el]; lia).
    assert (Hm1 : zlen mem1 = zlen mem) by (unfold zlen; rewrite <- (proj1 C2), <- (proj1 HS0); reflexivity).
    destruct (store_ok mem1 a (enc_core m')) as (mem2 & Es2); [lia|lia|]. rewrite Es2.
    apply store_spec in Es2 as (_ & _ & HA2 & HS2). rewrite Helc in HS2.
    exists mem2, m'. split; [reflexivity|].
    assert (Hu : u16 (core (m_n m) + texts vs) = core (m_n m) + texts vs) by (apply u16_id; lia).
    split; [split; [exact HA2|split; [cbn [m' m_n m_el]; lia|exact C6]]|].
    split; [reflexivity|]. split; [reflexivity|]. split; [exact Hu|].
    assert (Hin2 : forall p, In (Some (Sym p)) els' -> exists s, cstr mem2 p = Ok s /\ a + core (m_n m) <= p /\ p + zlen s + 1 <= a + core (m_n m) + texts vs).
    { intros p Hp. destruct (C4 p Hp) as (s & A1 & A2 & A3). exists s. split; [|lia].
      eapply cstr_same; [exact HS2| |exact A1]. right; lia. }
    split; [|split].
    + unfold values. cbn [m' m_n m_el]. assert ((0 <? m_n m) && (m_n m <=? zlen els') = true) as -> by lia.
      rewrite firstn_all_Z by lia. eapply values_of_same; [exact HS2| |exact C3].
      intros p s Hp Hs. destruct (C4 p Hp) as (s' & A1 & A2 & A3). right. lia.
    + intros p Hp. cbn [m' m_el] in Hp. destruct (Hin2 p Hp) as (s & A1 & A2 & A3). exists s. split; [exact A1|]. lia.
    + apply (same_trans mem mem1 mem2 a (a + (core (m_n m) + texts vs)) a (a + core (m_n m))); try exact HS2; try lia.
      apply (same_trans mem mem0 mem1 a (a + core (m_n m)) (a + core (m_n m)) (a + core (m_n m) + texts vs)); try assumption; lia.
Qed.

Lemma copy_ok mem m a len vs :
  msg_ok m -> values mem m = Some vs -> 0 < a -> a + len <= zlen mem -> zlen mem < 18446744073709551616 ->
  symbols_outside mem m a (a + len) -> needed vs <= len -> needed vs < 65536 ->
  exists mem' m', msg_copyToBuffer mem m a len = Ok mem' /\ load_msg mem' a = Ok m' /\
    m_ts m' = m_ts m /\ m_n m' = m_n m /\ m_nb m' = needed vs /\ values mem' m' = Some vs /\
    symbols_inside mem' m' (a + core (m_n m)) (a + needed vs) /\
    same_outside mem mem' a (a + needed vs).
Proof.
  intros Hok Hv Ha Hal H64 Hout Hlen H16.
  destruct (copy_at mem m a len vs Hok Hv Ha Hal H64 Hout Hlen H16) as (mem' & m' & C1 & (C2 & C2a & C2b) & C3 & C4 & C5 & C6 & C7 & C8).
  exists mem', m'. split; [exact C1|]. split; [|repeat (split; [assumption|]); assumption].
  destruct Hok as (Ht & Hn & _). apply values_spec in Hv as (Hn2 & Hvo).
  apply load_msg_at; try assumption; try lia.
  assert (0 <= needed vs). { unfold needed. pose proof (texts_nonneg vs) as HT. unfold texts in HT. pose proof (zlen_nonneg vs). lia. }
  lia.
Qed.

Lemma copy_syms_small hi els : forall mem len len_r p vs,
  values_of mem els = Some vs -> 0 < p -> len < len_r + texts vs -> p + (len - len_r) <= hi -> hi <= zlen mem ->
  (forall q s, In (Some (Sym q)) els -> cstr mem q = Ok s -> q + zlen s < p \/ hi <= q) ->
  len_r <= len ->
  copy_syms mem len len_r p els = AssertFail.
Proof.
  induction els as [|e els IH]; intros mem len len_r p vs Hv Hp Hlen Hhi Hm Hd Hr; cbn [values_of copy_syms] in *.
  - injection Hv as <-. cbn in Hlen. lia.
  - destruct e as [e|]; [|discriminate].
    destruct (value_of mem e) as [v|] eqn:Ev; [|discriminate]. destruct (values_of mem els) as [vs'|] eqn:El; [|discriminate].
    injection Hv as <-. rewrite texts_cons in *.
    assert (NS : is_s e = false -> copy_syms mem len len_r p els = AssertFail).
    { intros Hs. assert (Ht0 : text_bytes v = 0) by (destruct e; cbn in Ev, Hs; try discriminate; injection Ev as <-; reflexivity).
      apply (IH mem len len_r p vs'); try assumption; try lia. intros q s Hq. apply Hd. right; exact Hq. }
    destruct e as [|b|q|h]; try (rewrite NS by reflexivity; reflexivity).
    clear NS. cbn [value_of] in Ev. destruct (cstr mem q) as [s| |] eqn:Ec; try discriminate. injection Ev as <-.
    cbn [obind text_bytes] in *. pose proof (zlen_nonneg s) as Hsn.
    destruct (len_r + (zlen s + 1) <=? len) eqn:Ele; [|reflexivity].
    destruct (store_ok mem p (s ++ [0])) as (mem1 & Est); [lia|rewrite zlen_app, zlen_cons, zlen_nil; lia|].
    rewrite Est. cbn [obind]. apply store_spec in Est as (_ & _ & HA & HS1). rewrite zlen_app, zlen_cons, zlen_nil in HS1.
    assert (Hv1 : values_of mem1 els = Some vs').
    { eapply values_of_same; [exact HS1| |exact El]. intros p0 s0 Hin Hc0.
      destruct (Hd p0 s0 (or_intror Hin) Hc0); [left; lia|right; lia]. }
    rewrite (IH mem1 len (len_r + (zlen s + 1)) (p + (zlen s + 1)) vs'); [reflexivity|exact Hv1|lia|lia|lia| | |lia].
    + unfold zlen. rewrite <- (proj1 HS1). exact Hm.
    + intros q0 s0 Hin Hc0.
      assert (G : exists s1, cstr mem q0 = Ok s1).
      { clear - El Hin. revert vs' El. induction els as [|[e|] els IH]; intros vs' El; cbn [values_of] in El; try discriminate; [destruct Hin|].
        destruct (value_of mem e) as [v|] eqn:Ev; [|discriminate]. destruct (values_of mem els) as [w|] eqn:Ew; [|discriminate].
        destruct Hin as [Hin|Hin]; [|eapply IH; [exact Hin|reflexivity]]. injection Hin as ->. cbn in Ev.
        destruct (cstr mem q0) as [s1| |]; try discriminate. eauto. }
      destruct G as (s1 & Hs1). pose proof (Hd q0 s1 (or_intror Hin) Hs1) as Hd1.
      assert (Hc1 : cstr mem1 q0 = Ok s1) by (eapply cstr_same; [exact HS1| |exact Hs1]; lia).
      assert (s1 = s0) by congruence. subst s1. lia.
Qed.

Lemma copy_small mem m a len vs :
  values mem m = Some vs -> 0 < a -> a + len <= zlen mem ->
  symbols_outside mem m a (a + len) -> len < needed vs -> msg_copyToBuffer mem m a len = AssertFail.
Proof.
  intros Hv Ha Hal Hout Hlen.
  apply values_spec in Hv as (Hn2 & Hv). unfold msg_copyToBuffer, msg_getCoreSize.
  set (els := firstn (Z.to_nat (m_n m)) (m_el m)) in *.
  assert (Hle : zlen els = m_n m) by (unfold els, zlen in *; rewrite firstn_length; lia).
  pose proof (values_of_length _ _ _ Hv) as Hvl. assert (Hvz : zlen vs = m_n m) by (unfold zlen in *; lia).
  rewrite needed_core in Hlen by lia. rewrite Hvz in Hlen. pose proof (texts_nonneg vs) as Htn.
  assert (0 <? m_n m = true) as -> by lia. cbn [obind].
  assert (Hc : core (m_n m) = 8 + 16 * m_n m) by (unfold core; lia).
  destruct (core (m_n m) <=? len) eqn:Ecl; [|reflexivity]. rewrite Hle, Z.eqb_refl.
  set (m0 := mkMsg (m_ts m) (m_n m) (m_nb m) els).
  assert (Hel0 : zlen (enc_core m0) = core (m_n m)) by (rewrite enc_core_length; unfold core; cbn [m0 m_el]; lia).
  destruct (store_ok mem a (enc_core m0)) as (mem0 & Es0); [lia|lia|]. rewrite Es0. cbn [obind].
  apply store_spec in Es0 as (_ & _ & _ & HS0). rewrite Hel0 in HS0.
  assert (Hout' : forall p s, In (Some (Sym p)) els -> cstr mem p = Ok s -> p + zlen s < a \/ a + len <= p).
  { intros p s Hp. apply Hout. unfold els in Hp. rewrite <- (firstn_skipn (Z.to_nat (m_n m)) (m_el m)). apply in_or_app. left; exact Hp. }
  assert (Hv0 : values_of mem0 els = Some vs).
  { eapply values_of_same; [exact HS0| |exact Hv]. intros p s Hp Hs. destruct (Hout' p s Hp Hs); [left; lia|right; lia]. }
  rewrite (copy_syms_small (a + len) els mem0 len (core (m_n m)) (a + core (m_n m)) vs Hv0); [reflexivity|lia|lia|lia| | |lia].
  - unfold zlen. rewrite <- (proj1 HS0). exact Hal.
  - intros q s Hin Hc0.
    assert (G : exists s1, cstr mem q = Ok s1).
    { clear - Hv Hin. revert vs Hv. induction els as [|[e|] l IH]; intros vs Hv; cbn [values_of] in Hv; try discriminate; [destruct Hin|].
      destruct (value_of mem e) as [v|] eqn:Ev; [|discriminate]. destruct (values_of mem l) as [w|] eqn:Ew; [|discriminate].
      destruct Hin as [Hin|Hin]; [|eapply IH; [exact Hin|reflexivity]]. injection Hin as ->. cbn in Ev.
      destruct (cstr mem q) as [s1| |]; try discriminate. eauto. }
    destruct G as (s1 & Hs1). pose proof (Hout' q s1 Hin Hs1) as Hd1.
    assert (Hc1 : cstr mem0 q = Ok s1) by (eapply cstr_same; [exact HS0| |exact Hs1]; lia).
    assert (s1 = s) by congruence. subst s1. lia.
Qed.

(** * Setters *)
Lemma set_nth_same {A} k (x : A) l : (k < length l)%nat -> nth_error (set_nth k x l) k = Some x.
Proof. revert k; induction l as [|y l IH]; intros [|k] H; cbn in *; try lia; [reflexivity|]. apply IH; lia. Qed.
Lemma set_nth_other {A} k j (x : A) l : k <> j -> nth_error (set_nth k x l) j = nth_error l j.
Proof. revert k j; induction l as [|y l IH]; intros [|k] [|j] H; cbn; try reflexivity; try lia. apply IH; lia. Qed.
Lemma set_nth_length {A} k (x : A) l : length (set_nth k x l) = length l.
Proof. revert k; induction l as [|y l IH]; intros [|k]; cbn; congruence. Qed.

Lemma do_set_inv mem m o m' : do_set mem m o = Ok m' ->
  0 <= op_index o < m_n m /\ op_index o < zlen (m_el m) /\
  (forall i p, o = SSymbol i p -> exists s, cstr mem p = Ok s) /\
  m_ts m' = m_ts m /\ m_n m' = m_n m /\
  m_nb m' = (match o with SSymbol _ _ => u16 (m_nb m + u16 (op_text mem o)) | _ => m_nb m end) /\
  m_el m' = set_nth (Z.to_nat (op_index o)) (Some (op_elem o)) (m_el m).
Proof.
  assert (S : forall i e m1, set_elem m i e = Ok m1 -> 0 <= i < m_n m /\ i < zlen (m_el m) /\
     m1 = mkMsg (m_ts m) (m_n m) (m_nb m) (set_nth (Z.to_nat i) (Some e) (m_el m))).
  { intros i e m1. unfold set_elem. destruct (i <? m_n m) eqn:E1; [|discriminate].
    destruct ((0 <=? i) && (i <? zlen (m_el m))) eqn:E2; [|discriminate]. intros H; injection H as <-.
    split; [lia|]. split; [lia|reflexivity]. }
  destruct o as [i|i b|i h|i p]; cbn [do_set op_index op_elem]; intros H.
  - apply S in H as (H1 & H2 & ->). cbn. split; [lia|]. split; [lia|]. split; [intros ? ? HH; discriminate HH|auto].
  - apply S in H as (H1 & H2 & ->). cbn. split; [lia|]. split; [lia|]. split; [intros ? ? HH; discriminate HH|auto].
  - apply S in H as (H1 & H2 & ->). cbn. split; [lia|]. split; [lia|]. split; [intros ? ? HH; discriminate HH|auto].
  - unfold msg_setSymbol in H. destruct (i <? m_n m) eqn:E1; [|discriminate]. destruct (negb (p =? 0)); [|discriminate].
    destruct (set_elem m i (Sym p)) as [m1| |] eqn:E2; try discriminate. cbn [obind] in H.
    apply S in E2 as (H1 & H2 & ->). destruct (cstr mem p) as [s| |] eqn:Ec; try discriminate. cbn [obind] in H.
    injection H as <-. cbn. split; [lia|]. split; [lia|]. split; [intros ? ? HH; injection HH as _ <-; eauto|].
    rewrite Ec. auto.
Qed.

Lemma do_set_ok mem m o : 0 <= op_index o < m_n m -> m_n m <= zlen (m_el m) ->
  (forall i p, o = SSymbol i p -> exists s, cstr mem p = Ok s) -> exists m', do_set mem m o = Ok m'.
Proof.
  intros H1 H2 H3.
  assert (S : forall i e, 0 <= i < m_n m -> exists m', set_elem m i e = Ok m').
  { intros i e Hi. unfold set_elem. assert (i <? m_n m = true) as -> by lia.
    assert ((0 <=? i) && (i <? zlen (m_el m)) = true) as -> by lia. eauto. }
  destruct o as [i|i b|i h|i p]; cbn [do_set op_index] in *; try (apply S; exact H1).
  unfold msg_setSymbol. assert (i <? m_n m = true) as -> by lia.
  destruct (H3 i p eq_refl) as (s & Hs). pose proof Hs as Hp. apply cstr_spec in Hp as (Hp & _).
  assert (negb (p =? 0) = true) as -> by lia. destruct (S i (Sym p) H1) as (m1 & ->). cbn [obind]. rewrite Hs. cbn. eauto.
Qed.

(** Text of the elements currently set. *)
Definition el_text (mem : bytes) (e : option elem) : Z :=
  match e with Some (Sym p) => match cstr mem p with Ok s => zlen s + 1 | _ => 0 end | _ => 0 end.
Definition els_text (mem : bytes) (l : list (option elem)) : Z := fold_right Z.add 0 (map (el_text mem) l).
Lemma el_text_nonneg mem e : 0 <= el_text mem e.
Proof. destruct e as [[| |p|]|]; cbn; try lia. destruct (cstr mem p) as [s| |]; try lia. pose proof (zlen_nonneg s). lia. Qed.
Lemma els_text_set mem k e l : els_text mem (set_nth k e l) <= els_text mem l + el_text mem e.
Proof.
  revert k; induction l as [|y l IH]; intros [|k]; cbn [set_nth]; unfold els_text in *; cbn [map fold_right].
  - pose proof (el_text_nonneg mem e). lia.
  - pose proof (el_text_nonneg mem e). lia.
  - pose proof (el_text_nonneg mem y). lia.
  - specialize (IH k). lia.
Qed.
Lemma values_of_text mem l vs : values_of mem l = Some vs -> texts vs = els_text mem l.
Proof.
  revert vs; induction l as [|[e|] l IH]; intros vs H; cbn [values_of] in H; try discriminate; [injection H as <-; reflexivity|].
  destruct (value_of mem e) as [v|] eqn:Ev; [|discriminate]. destruct (values_of mem l) as [w|]; [|discriminate]. injection H as <-.
  rewrite texts_cons. unfold els_text. cbn [map fold_right]. fold (els_text mem l). rewrite (IH w eq_refl). f_equal.
  destruct e as [|b|p|h]; cbn in *; try (injection Ev as <-; reflexivity). destruct (cstr mem p); try discriminate. injection Ev as <-. reflexivity.
Qed.

Lemma op_text_el mem o : op_text mem o = el_text mem (Some (op_elem o)).
Proof. destruct o; reflexivity. Qed.
Lemma ops_text_nonneg mem ops : 0 <= ops_text mem ops.
Proof.
  induction ops as [|o ops IH]; unfold ops_text in *; cbn [map fold_right]; [lia|]. rewrite op_text_el. pose proof (el_text_nonneg mem (Some (op_elem o))). lia.
Qed.

Lemma do_sets_inv mem ops : forall m m', do_sets mem m ops = Ok m' ->
  0 <= m_nb m -> m_nb m + ops_text mem ops < 65536 -> Forall op_ok ops -> Forall elem_ok (m_el m) ->
  m_ts m' = m_ts m /\ m_n m' = m_n m /\ length (m_el m') = length (m_el m) /\
  m_nb m' = m_nb m + ops_text mem ops /\
  els_text mem (m_el m') <= els_text mem (m_el m) + ops_text mem ops /\ Forall elem_ok (m_el m').
Proof.
  induction ops as [|o ops IH]; intros m m' H Hn0 Hn Hok Hel; cbn [do_sets] in H.
  - injection H as <-. unfold ops_text; cbn. repeat split; try lia. exact Hel.
  - destruct (do_set mem m o) as [m1| |] eqn:E; try discriminate. cbn [obind] in H.
    apply do_set_inv in E as (A1 & A2 & A3 & A4 & A5 & A6 & A7).
    unfold ops_text in Hn. cbn [map fold_right] in Hn. fold (ops_text mem ops) in Hn.
    pose proof (ops_text_nonneg mem ops) as Hop. pose proof (el_text_nonneg mem (Some (op_elem o))) as Hoe. rewrite <- op_text_el in Hoe.
    assert (Hnb1 : m_nb m1 = m_nb m + op_text mem o).
    { rewrite A6. destruct o; cbn [op_text]; try lia. cbn [op_text] in *. rewrite !u16_id; try lia. rewrite u16_id; lia. }
    inversion Hok as [|? ? Ho Hok']; subst.
    destruct (IH m1 m' H) as (B1 & B2 & B3 & B4 & B5 & B6); [lia|lia|exact Hok'| |].
    { rewrite A7. clear - Hel Ho. revert Hel. generalize (Z.to_nat (op_index o)) as k. generalize (m_el m) as l.
      induction l as [|y l IH]; intros k Hel; cbn [set_nth]; [destruct k; constructor|]. inversion Hel; subst.
      destruct k; constructor; try assumption; [destruct o; exact Ho|apply IH; assumption]. }
    unfold ops_text; cbn [map fold_right]. fold (ops_text mem ops).
    split; [congruence|]. split; [congruence|]. split; [rewrite B3, A7, set_nth_length; reflexivity|].
    split; [lia|]. split; [|exact B6].
    rewrite A7 in B5. pose proof (els_text_set mem (Z.to_nat (op_index o)) (Some (op_elem o)) (m_el m)) as G.
    rewrite <- op_text_el in G. lia.
Qed.

Lemma els_text_none mem k : els_text mem (repeat None k) = 0.
Proof. induction k; [reflexivity|]. unfold els_text in *; cbn; exact IHk. Qed.

Lemma els_text_firstn mem k l : els_text mem (firstn k l) <= els_text mem l.
Proof.
  revert k; induction l as [|y l IH]; intros [|k]; unfold els_text in *; cbn [firstn map fold_right]; try lia.
  - pose proof (el_text_nonneg mem y). assert (0 <= fold_right Z.add 0 (map (el_text mem) l)); [|lia].
    clear. induction l as [|z l IH]; cbn; [lia|]. pose proof (el_text_nonneg mem z). lia.
  - specialize (IH k). lia.
Qed.

(** * hasFormat *)
Lemma values_nth mem l vs k : values_of mem l = Some vs -> (k < length l)%nat ->
  exists e v, nth_error l k = Some (Some e) /\ nth_error vs k = Some v /\ value_of mem e = Some v.
Proof.
  revert vs k; induction l as [|[e|] l IH]; intros vs k H Hk; cbn [values_of length] in *; try lia; try discriminate.
  destruct (value_of mem e) as [v|] eqn:Ev; [|discriminate]. destruct (values_of mem l) as [w|] eqn:Ew; [|discriminate]. injection H as <-.
  destruct k as [|k]; cbn [nth_error]; [eauto|]. apply (IH w k eq_refl). lia.
Qed.

Lemma values_get mem m vs i : values mem m = Some vs -> 0 <= i < m_n m ->
  exists e v, get_elem m i = Ok e /\ nth_error vs (Z.to_nat i) = Some v /\ value_of mem e = Some v.
Proof.
  intros H Hi. apply values_spec in H as (Hn & H).
  destruct (values_nth mem _ vs (Z.to_nat i) H) as (e & v & E1 & E2 & E3).
  { rewrite firstn_length. unfold zlen in Hn. lia. }
  exists e, v. split; [|auto]. unfold get_elem. assert (i <? m_n m = true) as -> by lia. assert (0 <=? i = true) as -> by lia.
  assert (G : nth_error (m_el m) (Z.to_nat i) = Some (Some e)).
  { rewrite <- (firstn_skipn (Z.to_nat (m_n m)) (m_el m)). rewrite nth_error_app1; [exact E1|]. rewrite firstn_length. unfold zlen in Hn. lia. }
  rewrite G. reflexivity.
Qed.

Lemma has_format_loop_spec mem m vs fmt : values mem m = Some vs -> Forall (fun c => c <> 0) fmt ->
  forall k i, 0 <= i -> i + Z.of_nat k = m_n m -> (Z.to_nat i <= length fmt)%nat ->
  exists b, has_format_loop m fmt i k = Ok b /\
    (b = true <-> skipn (Z.to_nat i) fmt = map letter (skipn (Z.to_nat i) vs)).
Proof.
  intros Hv Hf. assert (Hlv : length vs = Z.to_nat (m_n m)).
  { apply values_spec in Hv as (Hn & H). apply values_of_length in H. rewrite H, firstn_length. unfold zlen in Hn. lia. }
  induction k as [|k IH]; intros i Hi Hk Hl; cbn [has_format_loop].
  - rewrite (skipn_all2 vs) by lia. cbn [map]. destruct (Nat.eq_dec (Z.to_nat i) (length fmt)) as [E|E].
    + rewrite E. rewrite nth_error_app2 by lia. rewrite Nat.sub_diag. cbn [nth_error]. exists true. split; [reflexivity|].
      rewrite skipn_all. split; reflexivity.
    + rewrite nth_error_app1 by lia. destruct (nth_error fmt (Z.to_nat i)) as [c|] eqn:Ec; [|apply nth_error_None in Ec; lia].
      assert (c <> 0) by (rewrite Forall_forall in Hf; apply Hf; eapply nth_error_In; exact Ec).
      exists false. split; [f_equal; lia|]. split; [discriminate|]. intros G. apply (f_equal (@length Z)) in G.
      rewrite skipn_length in G. cbn in G. lia.
  - assert (Hsk : forall {A} (l : list A) j x, nth_error l j = Some x -> skipn j l = x :: skipn (S j) l).
    { clear. intros A l; induction l as [|y l IH]; intros [|j] x H; cbn in *; try discriminate; [injection H as ->; reflexivity|apply IH; exact H]. }
    destruct (values_get mem m vs i Hv) as (e & v & G1 & G2 & G3); [lia|].
    rewrite (Hsk _ _ _ _ G2).
    destruct (Nat.eq_dec (Z.to_nat i) (length fmt)) as [E|E].
    + rewrite E. rewrite nth_error_app2 by lia. rewrite Nat.sub_diag. cbn [nth_error Z.eqb]. exists false. split; [reflexivity|].
      split; [discriminate|]. rewrite skipn_all. cbn [map]. discriminate.
    + rewrite nth_error_app1 by lia. destruct (nth_error fmt (Z.to_nat i)) as [c|] eqn:Ec; [|apply nth_error_None in Ec; lia].
      rewrite (Hsk _ _ _ _ Ec). cbn [map].
      destruct (IH (i + 1)) as (b & B1 & B2); [lia|lia|lia|].
      replace (Z.to_nat (i + 1)) with (S (Z.to_nat i)) in B2 by lia.
      assert (T : forall f, test_elem f m i = Ok (f e)).
      { intros f. unfold test_elem. assert (i <? m_n m = true) as -> by lia. rewrite G1. reflexivity. }
      assert (Q : forall f d, (f e = true <-> letter v = d) -> c = d ->
        exists b0, (let! b1 := test_elem f m i in if b1 then has_format_loop m fmt (i + 1) k else Ok false) = Ok b0 /\
        (b0 = true <-> c :: skipn (S (Z.to_nat i)) fmt = letter v :: map letter (skipn (S (Z.to_nat i)) vs))).
      { intros f d Hiff Hcd. rewrite T. cbn [obind]. destruct (f e) eqn:Ef.
        - rewrite B1. exists b. split; [reflexivity|]. rewrite B2. split.
          + intros ->. f_equal. rewrite Hcd. symmetry. apply Hiff. reflexivity.
          + intros HH. injection HH as _ HH. exact HH.
        - exists false. split; [reflexivity|]. split; [discriminate|]. intros HH. injection HH as HH _.
          apply Hiff. congruence. }
      destruct (Z.eqb_spec c 98) as [E1|N1].
      { apply (Q is_b 98); [|exact E1]. destruct e as [| | p |]; cbn in G3; try (injection G3 as <-; cbn; split; (reflexivity || discriminate || lia)).
        destruct (cstr mem p); try discriminate. injection G3 as <-. cbn. split; discriminate. }
      destruct (Z.eqb_spec c 102) as [E2|N2].
      { apply (Q is_f 102); [|exact E2]. destruct e as [| | p |]; cbn in G3; try (injection G3 as <-; cbn; split; (reflexivity || discriminate || lia)).
        destruct (cstr mem p); try discriminate. injection G3 as <-. cbn. split; discriminate. }
      destruct (Z.eqb_spec c 104) as [E3|N3].
      { apply (Q is_h 104); [|exact E3]. destruct e as [| | p |]; cbn in G3; try (injection G3 as <-; cbn; split; (reflexivity || discriminate || lia)).
        destruct (cstr mem p); try discriminate. injection G3 as <-. cbn. split; discriminate. }
      destruct (Z.eqb_spec c 115) as [E4|N4].
      { apply (Q is_s 115); [|exact E4]. destruct e as [| | p |]; cbn in G3; try (injection G3 as <-; cbn; split; (reflexivity || discriminate || lia)).
        destruct (cstr mem p); try discriminate. injection G3 as <-. cbn. split; reflexivity. }
      exists false. split; [reflexivity|]. split; [discriminate|]. intros HH. injection HH as HH _.
      destruct v; cbn in HH; lia.
Qed.

(** * toString *)
Section Text.
Variable fmt_g : Z -> bytes.

Lemma elem_text_value mem e v : value_of mem e = Some v -> elem_text fmt_g mem e = Ok (printed fmt_g v).
Proof.
  destruct e as [|b|p|h]; cbn [value_of elem_text]; intros H; try (injection H as <-; reflexivity).
  destruct (cstr mem p); try discriminate. injection H as <-. reflexivity.
Qed.

Lemma len_loop_spec mem m vs : values mem m = Some vs -> forall k i, 0 <= i -> i + Z.of_nat k = m_n m ->
  len_loop fmt_g mem m i k = Ok (map (fun v => zlen (printed fmt_g v) + 1) (skipn (Z.to_nat i) vs)).
Proof.
  intros Hv. assert (Hlv : length vs = Z.to_nat (m_n m)).
  { apply values_spec in Hv as (Hn & H). apply values_of_length in H. rewrite H, firstn_length. unfold zlen in Hn. lia. }
  induction k as [|k IH]; intros i Hi Hk; cbn [len_loop].
  - rewrite skipn_all2 by lia. reflexivity.
  - destruct (values_get mem m vs i Hv) as (e & v & G1 & G2 & G3); [lia|]. rewrite G1. cbn [obind].
    rewrite (elem_text_value _ _ _ G3). cbn [obind]. rewrite IH by lia. cbn [obind].
    assert (Hsk : forall {A} (l : list A) j x, nth_error l j = Some x -> skipn j l = x :: skipn (S j) l).
    { clear. intros A l; induction l as [|y l IH]; intros [|j] x H; cbn in *; try discriminate; [injection H as ->; reflexivity|apply IH; exact H]. }
    rewrite (Hsk _ _ _ _ G2). replace (Z.to_nat (i + 1)) with (S (Z.to_nat i)) by lia. reflexivity.
Qed.

Lemma store_mid pre mid post bs : length bs = length mid ->
  store (pre ++ mid ++ post) (zlen pre) bs = Ok (pre ++ bs ++ post).
Proof.
  intros Hl. unfold store. rewrite !zlen_app.
  assert ((0 <=? zlen pre) && (zlen pre + zlen bs <=? zlen pre + (zlen mid + zlen post)) = true) as ->.
  { unfold zlen. lia. }
  f_equal. unfold zlen. rewrite Nat2Z.id. rewrite firstn_app, firstn_all, Nat.sub_diag. cbn [firstn]. rewrite app_nil_r.
  f_equal. rewrite Hl. rewrite app_assoc. rewrite skipn_app, app_length.
  rewrite skipn_all2 by (rewrite app_length; lia). rewrite Nat.sub_diag. reflexivity.
Qed.

Definition words (vs : list value) : bytes := flat_map (fun v => printed fmt_g v ++ [32]) vs.

Lemma text_loop_spec mem m vs : values mem m = Some vs -> forall ws i done rest, 0 <= i ->
  skipn (Z.to_nat i) vs = ws -> zlen rest = zlen (words ws) ->
  text_loop fmt_g mem m (done ++ rest) (zlen done) i (map (fun v => zlen (printed fmt_g v) + 1) ws) = Ok (done ++ words ws).
Proof.
  intros Hv. assert (Hlv : length vs = Z.to_nat (m_n m)).
  { apply values_spec in Hv as (Hn & H). apply values_of_length in H. rewrite H, firstn_length. unfold zlen in Hn. lia. }
  induction ws as [|w ws IH]; intros i dn rest Hi Hs Hl; cbn [map text_loop].
  - unfold words in *; cbn in Hl. destruct rest; [|rewrite zlen_cons in Hl; pose proof (zlen_nonneg rest); change (zlen (@nil Z)) with 0 in Hl; lia]. reflexivity.
  - assert (Hi2 : 0 <= i < m_n m).
    { destruct (Z.lt_ge_cases i (m_n m)); [lia|]. rewrite skipn_all2 in Hs by lia. discriminate. }
    destruct (values_get mem m vs i Hv Hi2) as (e & v & G1 & G2 & G3). rewrite G1. cbn [obind].
    assert (Hsk : forall {A} (l : list A) j x, nth_error l j = Some x -> skipn j l = x :: skipn (S j) l).
    { clear. intros A l; induction l as [|y l IH]; intros [|j] x H; cbn in *; try discriminate; [injection H as ->; reflexivity|apply IH; exact H]. }
    rewrite (Hsk _ _ _ _ G2) in Hs. injection Hs as <- Hs.
    rewrite (elem_text_value _ _ _ G3). cbn [obind]. set (t := printed fmt_g v) in *.
    unfold words in Hl; cbn [flat_map] in Hl. fold (words ws) in Hl. fold t in Hl. rewrite !zlen_app, zlen_cons, zlen_nil in Hl.
    pose proof (zlen_nonneg t) as Htn. pose proof (zlen_nonneg (words ws)) as Hwn.
    unfold snprintf. assert (zlen t + 1 <=? 0 = false) as -> by lia. replace (zlen t + 1 - 1) with (zlen t) by lia.
    rewrite firstn_all_Z by reflexivity.
    (* split rest *)
    assert (Hr : exists mid b post, rest = mid ++ [b] ++ post /\ length mid = length t /\ zlen post = zlen (words ws)).
    { exists (firstn (length t) rest). pose proof (firstn_skipn (length t) rest) as E.
      destruct (skipn (length t) rest) as [|b post] eqn:E2.
      - assert (length (skipn (length t) rest) = 0%nat) by (rewrite E2; reflexivity). rewrite skipn_length in H. unfold zlen in *. lia.
      - exists b, post. split; [symmetry; exact E|]. pose proof (skipn_length (length t) rest) as HL. rewrite E2 in HL. cbn in HL.
        split; [rewrite firstn_length; unfold zlen in *; lia|unfold zlen in *; lia]. }
    destruct Hr as (mid & b & post & -> & Hm & Hp).
    assert (E1 : store (dn ++ mid ++ [b] ++ post) (zlen dn) (t ++ [0]) = Ok (dn ++ (t ++ [0]) ++ post)).
    { rewrite (app_assoc mid [b] post). apply store_mid. rewrite !app_length. cbn. lia. }
    rewrite E1. cbn [obind].
    assert (E2 : store (dn ++ (t ++ [0]) ++ post) (zlen dn + (zlen t + 1) - 1) [32] = Ok (dn ++ t ++ [32] ++ post)).
    { replace (dn ++ (t ++ [0]) ++ post) with ((dn ++ t) ++ [0] ++ post) by (rewrite <- !app_assoc; reflexivity).
      replace (zlen dn + (zlen t + 1) - 1) with (zlen (dn ++ t)) by (rewrite zlen_app; lia).
      rewrite store_mid by reflexivity. rewrite <- app_assoc. reflexivity. }
    rewrite E2. cbn [obind].
    replace (dn ++ t ++ [32] ++ post) with ((dn ++ t ++ [32]) ++ post) by (rewrite <- !app_assoc; reflexivity).
    replace (zlen dn + (zlen t + 1)) with (zlen (dn ++ t ++ [32])) by (rewrite !zlen_app, zlen_cons, zlen_nil; lia).
    rewrite (IH (i + 1) (dn ++ t ++ [32]) post); [|lia| |exact Hp].
    + unfold words. cbn [flat_map]. fold t. rewrite <- !app_assoc. reflexivity.
    + replace (Z.to_nat (i + 1)) with (S (Z.to_nat i)) by lia. exact Hs.
Qed.

Lemma words_spaced vs : vs <> [] -> words vs = spaced (map (printed fmt_g) vs) ++ [32].
Proof.
  induction vs as [|v vs IH]; intros Hne; [congruence|]. unfold words. cbn [flat_map map]. fold (words vs).
  destruct vs as [|w vs]; [cbn; rewrite app_nil_r; reflexivity|]. rewrite IH by discriminate.
  cbn [map spaced]. rewrite <- !app_assoc. reflexivity.
Qed.

Lemma words_size vs : fold_right Z.add 0 (map (fun v => zlen (printed fmt_g v) + 1) vs) = zlen (words vs).
Proof.
  induction vs as [|v vs IH]; [reflexivity|]. cbn [map fold_right]. rewrite IH. unfold words; cbn [flat_map].
  rewrite !zlen_app, zlen_cons, zlen_nil. fold (words vs). lia.
Qed.

Lemma toString_spec mem m vs junk : values mem m = Some vs -> (forall n, 0 <= n -> zlen (junk n) = n) ->
  msg_toString fmt_g mem m junk = Ok (spaced (map (printed fmt_g) vs) ++ [0]).
Proof.
  intros Hv Hj. pose proof Hv as Hv'. apply values_spec in Hv' as (Hn & H). apply values_of_length in H.
  rewrite firstn_length in H.
  assert (Hne : vs <> []) by (intros ->; unfold zlen in Hn; cbn in H; lia).
  unfold msg_toString. assert (0 <? m_n m = true) as -> by lia.
  rewrite (len_loop_spec mem m vs Hv) by lia. cbn [obind Z.to_nat skipn]. rewrite words_size.
  assert (Hw : zlen (words vs) = zlen (spaced (map (printed fmt_g) vs)) + 1) by (rewrite (words_spaced vs Hne), zlen_app, zlen_cons, zlen_nil; lia).
  pose proof (zlen_nonneg (spaced (map (printed fmt_g) vs))) as Hs0.
  assert (0 <? zlen (words vs) = true) as -> by lia.
  pose proof (text_loop_spec mem m vs Hv vs 0 [] (junk (zlen (words vs)))) as T. cbn [app] in T. change (zlen (@nil Z)) with 0 in T.
  rewrite T; [|lia|reflexivity|apply Hj; lia]. cbn [obind]. rewrite Hw. rewrite (words_spaced vs Hne).
  replace (zlen (spaced (map (printed fmt_g) vs)) + 1 - 1) with (zlen (spaced (map (printed fmt_g) vs))) by lia.
  rewrite <- (app_nil_r [32]). rewrite store_mid by reflexivity. rewrite app_nil_r. reflexivity.
Qed.
End Text.
