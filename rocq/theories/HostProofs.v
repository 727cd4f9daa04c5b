From Verif Require Import HostModel HostSpec MessageSpec MessageProofs MessageProofs2 PipeProofs PipeProofs2.
Require Import ZifyBool.

(** * One record *)
Lemma values_of_mono m1 m2 l : (forall p s, In (Some (Sym p)) l -> cstr m1 p = Ok s -> cstr m2 p = Ok s) ->
  forall vs, values_of m1 l = Some vs -> values_of m2 l = Some vs.
Proof.
  induction l as [|[e|] l IH]; intros Hd vs H; cbn [values_of] in *; try assumption; try discriminate.
  destruct (value_of m1 e) as [v|] eqn:Ev; [|discriminate]. destruct (values_of m1 l) as [vs'|] eqn:El; [|discriminate].
  injection H as <-. rewrite (IH (fun p s Hp => Hd p s (or_intror Hp)) vs' eq_refl).
  assert (G : value_of m2 e = Some v).
  { destruct e as [|b|p|h]; cbn [value_of] in *; try assumption.
    destruct (cstr m1 p) as [s| |] eqn:Ec; try discriminate. injection Ev as <-.
    rewrite (Hd p s (or_introl eq_refl) Ec). reflexivity. }
  rewrite G. reflexivity.
Qed.

Lemma values_of_sym mem l vs p : values_of mem l = Some vs -> In (Some (Sym p)) l -> exists s, cstr mem p = Ok s.
Proof.
  revert vs. induction l as [|[e|] l IH]; intros vs Hv Hin; cbn [values_of] in Hv; try discriminate; [destruct Hin|].
  destruct (value_of mem e) as [v|] eqn:Ev; [|discriminate]. destruct (values_of mem l) as [w|] eqn:Ew; [|discriminate].
  destruct Hin as [Hin|Hin]; [|eapply IH; [reflexivity|exact Hin]]. injection Hin as ->. cbn in Ev.
  destruct (cstr mem p) as [s1| |]; try discriminate. eauto.
Qed.

Lemma cstr_end mem p s : cstr mem p = Ok s -> p + zlen s < zlen mem.
Proof.
  intros H. apply cstr_spec in H as (Hp & _ & HA). apply at_bound in HA; [|rewrite app_length; cbn; lia].
  rewrite zlen_app, zlen_cons, zlen_nil in HA. lia.
Qed.

Lemma at_app_mem m1 m2 a bs : at_ m1 a bs -> a + zlen bs <= zlen m1 -> at_ (m1 ++ m2) a bs.
Proof.
  intros (Ha & H) Hb. split; [exact Ha|]. intros j Hj. rewrite nth_error_app1 by (unfold zlen in Hb; lia). apply H; exact Hj.
Qed.

Lemma cstr_app mem x p s : cstr mem p = Ok s -> cstr (mem ++ x) p = Ok s.
Proof.
  intros H. pose proof (cstr_end _ _ _ H) as He. apply cstr_spec in H as (Hp & HF & HA). apply cstr_spec.
  split; [exact Hp|]. split; [exact HF|]. apply at_app_mem; [exact HA|]. rewrite zlen_app, zlen_cons, zlen_nil. lia.
Qed.

Lemma skipn_same base (w : bytes) : (base <= length w)%nat ->
  same_outside w (repeat 0 base ++ skipn base w) 0 (Z.of_nat base).
Proof.
  intros Hb. split.
  - rewrite app_length, repeat_length, skipn_length. lia.
  - intros k Hk. rewrite nth_error_app2 by (rewrite repeat_length; lia). rewrite repeat_length.
    rewrite <- (firstn_skipn base w) at 1. rewrite nth_error_app2 by (rewrite firstn_length; lia). f_equal. rewrite firstn_length. lia.
Qed.

Lemma copy_trunc mem m a len :
  msg_copyToBuffer mem (mkMsg (m_ts m) (m_n m) (m_nb m) (firstn (Z.to_nat (m_n m)) (m_el m))) a len = msg_copyToBuffer mem m a len.
Proof. unfold msg_copyToBuffer. cbn [m_n m_el m_ts m_nb]. rewrite firstn_firstn, Nat.min_id. reflexivity. Qed.

Lemma needed_ge mem m vs : values mem m = Some vs -> 24 <= needed vs.
Proof.
  intros Hv. apply values_spec in Hv as (Hn & Hv). pose proof (values_of_length _ _ _ Hv) as Hl.
  rewrite firstn_length in Hl. pose proof (texts_nonneg vs) as HT. unfold texts in HT. unfold needed, zlen in *. lia.
Qed.

Lemma record_ok base c : sendable base c -> 0 < base < 18446744073709000000 ->
  exists r, call_record c = Ok r /\ zlen r = pair_size (c_msg c) /\ 32 <= zlen r /\ meaning c <> None /\
    found base r = meaning c /\ at_ (repeat 0 (Z.to_nat base) ++ r) base (le 4 (c_hash c)) /\
    exists m', read_record base r = Ok (c_hash c, m') /\ at_ (repeat 0 (Z.to_nat base) ++ r) (base + 8) (enc_core m') /\
      m_ts m' = call_time c /\ 0 <= m_ts m' < 4294967296 /\ m_n m' = zlen (m_el m') /\ m_n m' < 65536 /\ 0 <= m_nb m' < 65536 /\ all_set (m_el m') /\
      8 + 16 * m_n m' <= m_nb m' /\ m_nb m' + 8 <= zlen r /\
      values (repeat 0 (Z.to_nat base) ++ r) m' = values (c_mem c) (c_msg c).
Proof.
  intros (Hb & Ho & Hh & Hok & H4 & vs & Hv & Hnd) Hbase.
  unfold call_record, record_of. set (mem := c_mem c) in *. set (m := c_msg c) in *. rewrite Hb.
  pose proof (needed_ge _ _ _ Hv) as Hn24.
  assert (Hnb : m_nb m < 65536) by (destruct Hok as (_ & _ & ? & _); lia).
  unfold pair_size in *.
  assert (Hw0 : zlen (mem ++ c_old c) = base + m_nb m + 8) by (rewrite zlen_app; lia).
  destruct (store_ok (mem ++ c_old c) base (le 4 (c_hash c))) as (w1 & E1); [lia|unfold zlen at 1; rewrite le_length; lia|].
  rewrite E1. cbn [obind]. apply store_spec in E1 as (_ & _ & HA1 & HS1).
  assert (L4 : forall v, zlen (le 4 v) = 4) by (intros v; unfold zlen; rewrite le_length; reflexivity). rewrite L4 in HS1.
  assert (Hw1 : zlen w1 = base + m_nb m + 8) by (unfold zlen in *; rewrite <- (proj1 HS1); exact Hw0).
  set (mt := mkMsg (m_ts m) (m_n m) (m_nb m) (firstn (Z.to_nat (m_n m)) (m_el m))).
  pose proof Hv as Hv0. apply values_spec in Hv0 as (Hn2 & Hv0).
  assert (Hcs : forall p s, In (Some (Sym p)) (m_el mt) -> cstr mem p = Ok s -> cstr w1 p = Ok s).
  { intros p s _ Hs. pose proof (cstr_end _ _ _ Hs). eapply cstr_same; [exact HS1| |apply cstr_app; exact Hs]. lia. }
  assert (Hlt : zlen (m_el mt) = m_n m) by (cbn [mt m_el]; unfold zlen in *; rewrite firstn_length; lia).
  assert (Hv1 : values w1 mt = Some vs).
  { unfold values. rewrite Hlt. cbn [mt m_n]. assert ((0 <? m_n m) && (m_n m <=? m_n m) = true) as -> by lia.
    rewrite firstn_all_Z by (symmetry; exact Hlt). eapply values_of_mono; [exact Hcs|exact Hv0]. }
  rewrite <- copy_trunc. fold mt.
  destruct (copy_at w1 mt (base + 8) (m_nb m) vs) as (w2 & m' & C1 & (C2 & C2a & C2b) & C3 & C4 & C5 & C6 & C7 & C8).
  - destruct Hok as (O1 & O2 & O3 & O4). split; [exact O1|split; [exact O2|split; [exact O3|]]].
    cbn [mt m_el]. rewrite <- (firstn_skipn (Z.to_nat (m_n m)) (m_el m)) in O4. apply Forall_app in O4. tauto.
  - exact Hv1.
  - lia.
  - lia.
  - lia.
  - intros p s Hp Hs. destruct (values_of_sym mem (m_el mt) vs p Hv0 Hp) as (s' & Hs').
    pose proof (Hcs p s' Hp Hs') as Hs2. assert (s' = s) by congruence. subst s'. apply cstr_end in Hs'. lia.
  - exact Hnd.
  - lia.
  - rewrite C1. cbn [obind].
    assert (Hw2 : zlen w2 = base + m_nb m + 8) by (unfold zlen in *; rewrite <- (proj1 C8); exact Hw1).
    assert (G : exists w3 m3, match call_stamp c with Some t => store w2 (base + 8) (le 4 t) | None => Ok w2 end = Ok w3 /\
       same_outside w2 w3 (base + 8) (base + 12) /\ at_ w3 (base + 8) (enc_core m3) /\ m_ts m3 = call_time c /\ 0 <= m_ts m3 < 4294967296 /\
       m_n m3 = m_n m' /\ m_nb m3 = m_nb m' /\ m_el m3 = m_el m').
    { unfold call_stamp, call_time. fold m. destruct (c_delay c) as [d|].
      - destruct (store_ok w2 (base + 8) (le 4 (u32 (c_clock c + d)))) as (w3 & E3); [lia|rewrite L4; lia|].
        exists w3, (mkMsg (u32 (c_clock c + d)) (m_n m') (m_nb m') (m_el m')). split; [exact E3|].
        apply store_spec in E3 as (_ & _ & HA3 & HS3). rewrite L4 in HS3. replace (base + 8 + 4) with (base + 12) in HS3 by lia.
        split; [exact HS3|]. cbn [m_ts m_n m_nb m_el]. split; [|repeat split; try reflexivity; apply u32_range].
        unfold enc_core in C2 |- *. cbn [m_ts m_n m_nb m_el]. apply at_app in C2 as (_ & C2). apply at_app. split; [exact HA3|].
        rewrite L4 in *. eapply at_same; [exact HS3| |exact C2]. right; lia.
      - exists w2, m'. split; [reflexivity|]. split; [split; [reflexivity|intros; reflexivity]|]. split; [exact C2|].
        destruct Hok as (O1 & _). cbn [mt m_ts] in C3. rewrite C3. fold m. repeat split; try reflexivity; tauto. }
    destruct G as (w3 & m3 & E3 & HS3 & HA3 & T1 & T2 & N1 & N2 & N3). rewrite E3. cbn [obind].
    set (r := skipn (length mem) w3).
    assert (Hlm : length mem = Z.to_nat base) by (unfold zlen in Hb; lia).
    assert (Hw3 : zlen w3 = base + m_nb m + 8) by (unfold zlen in *; rewrite <- (proj1 HS3); exact Hw2).
    assert (Hr : zlen r = m_nb m + 8) by (unfold r, zlen in *; rewrite skipn_length; lia).
    pose proof (skipn_same (Z.to_nat base) w3 ltac:(unfold zlen in *; lia)) as HSd. rewrite <- Hlm in HSd at 2. fold r in HSd.
    rewrite Z2Nat.id in HSd by lia. set (dec := repeat 0 (Z.to_nat base) ++ r) in *.
    assert (HAh : at_ dec base (le 4 (c_hash c))).
    { eapply at_same; [exact HSd|right; lia|]. eapply at_same; [exact HS3|left; rewrite L4; lia|].
      eapply at_same; [exact C8|left; rewrite L4; lia|exact HA1]. }
    assert (HAm : at_ dec (base + 8) (enc_core m3)) by (eapply at_same; [exact HSd|right; lia|exact HA3]).
    rewrite <- N1, <- N3 in C2a. rewrite <- N3 in C2b. cbn [mt m_n] in C4.
    assert (Hread : read_record base r = Ok (c_hash c, m3)).
    { unfold read_record. fold dec. rewrite (load_at4 _ _ _ HAh Hh). cbn [obind].
      rewrite (load_msg_at dec (base + 8) m3); [reflexivity|assumption|assumption|assumption|destruct Hok as (_ & ? & _); lia|lia|assumption]. }
    assert (Hvals : values dec m3 = Some vs).
    { apply values_spec in C6 as (C6a & C6). unfold values. rewrite N1, N3.
      assert ((0 <? m_n m') && (m_n m' <=? zlen (m_el m')) = true) as -> by lia.
      eapply values_of_mono; [|exact C6]. intros p s Hp Hs.
      assert (Hp' : In (Some (Sym p)) (m_el m')) by (rewrite <- (firstn_skipn (Z.to_nat (m_n m')) (m_el m')); apply in_or_app; left; exact Hp).
      destruct (C7 p Hp') as (s2 & Hs2 & L1 & _). cbn [mt m_n] in L1. unfold core in L1.
      eapply cstr_same; [exact HSd| |eapply cstr_same; [exact HS3| |exact Hs]]; lia. }
    exists r. split; [reflexivity|]. split; [lia|]. split; [lia|]. unfold meaning. fold mem m. rewrite Hv.
    split; [discriminate|]. split; [unfold found; rewrite Hread; fold dec; rewrite Hvals, T1; reflexivity|].
    split; [exact HAh|]. exists m3. split; [exact Hread|]. split; [exact HAm|]. split; [exact T1|]. split; [exact T2|].
    split; [exact C2a|]. split; [destruct Hok as (_ & ? & _); lia|]. split; [lia|]. split; [exact C2b|].
    split; [|split; [lia|exact Hvals]]. rewrite N1, N2, C4, C5.
    assert (zlen vs = m_n m) by (apply values_of_length in Hv0; unfold zlen in *; rewrite Hv0, firstn_length; lia).
    unfold needed. pose proof (texts_nonneg vs) as HT. unfold texts in HT. lia.
Qed.

(** * Sessions *)
Lemma subseq_refl {A} (l : list A) : subseq l l.
Proof. induction l; [constructor|apply sub_keep; assumption]. Qed.
Lemma subseq_app {A} (a b c d : list A) : subseq a b -> subseq c d -> subseq (a ++ c) (b ++ d).
Proof. intros H Hc. induction H; cbn [app]; [exact Hc|apply sub_skip; assumption|apply sub_keep; assumption]. Qed.
Lemma subseq_nil {A} (l : list A) : subseq [] l.
Proof. induction l; constructor; assumption. Qed.
Lemma subseq_left {A} (a b l : list A) : subseq (a ++ b) l -> subseq a l.
Proof.
  intros H. remember (a ++ b) as ab eqn:E. revert a b E. induction H; intros a b E.
  - destruct a; [constructor|discriminate].
  - constructor. eapply IHsubseq; exact E.
  - destruct a as [|y a]; [apply subseq_nil|]. injection E as -> ->. apply sub_keep. eapply IHsubseq; reflexivity.
Qed.
Lemma subseq_snoc {A} (a l : list A) x : subseq a l -> subseq a (l ++ [x]).
Proof. intros H. rewrite <- (app_nil_r a). apply subseq_app; [exact H|apply subseq_nil]. Qed.

Section Session.
Context (base : Z) (Hbase : 0 < base < 18446744073709000000).

Definition is_rec (r : bytes) (c : call) : Prop := call_record c = Ok r.
Definition HInv (s : pipe) (seen acc : list call) : Prop :=
  (exists w f bk, Inv s w f bk) /\ Forall2 is_rec (sent s) acc /\ Forall (sendable base) acc /\
  exists pend, subseq (acc ++ pend) seen /\
    match cur (pp s) with
    | None => pend = []
    | Some r => exists c, pend = [c] /\ is_rec r c /\ sendable base c
    end.

Lemma cur_idle p : cur p = None <-> p = P_idle.
Proof. destruct p; cbn; split; intros; try discriminate; reflexivity. Qed.

Lemma sendable_good c r : sendable base c -> call_record c = Ok r -> good r.
Proof.
  intros HS Hr. destruct (record_ok base c HS Hbase) as (r' & E & Hz & H32 & _). rewrite Hr in E. injection E as <-.
  destruct HS as (_ & _ & _ & (_ & _ & Hnb & _) & H4 & _). unfold pair_size in Hz. unfold good.
  split; [lia|]. split; [|lia]. rewrite Hz. Z.div_mod_to_equations; lia.
Qed.

Lemma call_HInv s seen acc c : HInv s seen acc -> sendable base c ->
  exists r s', call_record c = Ok r /\ step s (Send r) = Ok s' /\ HInv s' (seen ++ [c]) acc /\ recv s' = recv s /\ cp s' = cp s /\ rh s' = rh s /\ len s' = len s.
Proof.
  intros ((w & f & bk & HI) & HF & HFS & pend & Hsub & Hp) HS.
  destruct (record_ok base c HS Hbase) as (r & E & _). exists r.
  pose proof (sendable_good c r HS E) as Hg. cbn [step]. destruct (cur (pp s)) as [r0|] eqn:Ec.
  - exists s. split; [exact E|].
    assert (Hne : pp s <> P_idle) by (intros H; apply cur_idle in H; congruence).
    split; [destruct (pp s); try reflexivity; contradiction|]. split; [|repeat split; reflexivity].
    destruct Hp as (c0 & -> & R & S0). split; [eauto|]. split; [exact HF|]. split; [exact HFS|]. exists [c0]. split; [apply subseq_snoc; exact Hsub|].
    rewrite Ec. exists c0. auto.
  - apply cur_idle in Ec. rewrite Ec. exists (set_p s (P_enter r)). split; [exact E|]. split; [reflexivity|].
    split; [|repeat split; reflexivity]. subst pend. rewrite app_nil_r in Hsub.
    pose proof (step_inv s w f bk (Send r) HI Hg) as (s1 & w1 & f1 & bk1 & E1 & HI1). cbn [step] in E1. rewrite Ec in E1. injection E1 as <-.
    split; [eauto|]. split; [exact HF|]. split; [exact HFS|]. exists [c]. split; [apply subseq_app; [exact Hsub|apply subseq_refl]|].
    cbn. exists c. auto.
Qed.

Lemma prod_HInv s seen acc : HInv s seen acc ->
  exists s' acc', step s Prod = Ok s' /\ HInv s' seen acc' /\ prefix acc acc' /\ recv s' = recv s /\ cp s' = cp s /\ rh s' = rh s /\ len s' = len s.
Proof.
  intros ((w & f & bk & HI) & HF & HFS & pend & Hsub & Hp).
  destruct (pstep_inv s w f bk HI) as (s1 & w1 & f1 & bk1 & E & HI1 & Hr & Hl & Hrh & Hcp & _).
  exists s1. cbn [step]. destruct (cur (pp s)) as [r|] eqn:Ec.
  - destruct Hp as (c & -> & R & S0). destruct (pstep_prog s s1 r Ec E) as (_ & [(A1 & A2 & _)|[(A1 & A2 & _)|(A1 & A2 & _)]]).
    + exists acc. split; [exact E|]. split; [|split; [exists []; symmetry; apply app_nil_r|auto]].
      split; [eauto|]. rewrite A2. split; [exact HF|]. split; [exact HFS|]. exists [c]. split; [exact Hsub|]. rewrite A1. exists c; auto.
    + exists (acc ++ [c]). split; [exact E|]. split; [|split; [exists [c]; reflexivity|auto]].
      split; [eauto|]. rewrite A2. split; [apply Forall2_app; [exact HF|constructor; [exact R|constructor]]|].
      split; [apply Forall_app; split; [exact HFS|constructor; [exact S0|constructor]]|].
      exists []. split; [rewrite app_nil_r; exact Hsub|]. rewrite A1. reflexivity.
    + exists acc. split; [exact E|]. split; [|split; [exists []; symmetry; apply app_nil_r|auto]].
      split; [eauto|]. rewrite A2. split; [exact HF|]. split; [exact HFS|]. exists []. split; [apply subseq_left in Hsub; rewrite app_nil_r; exact Hsub|].
      rewrite A1. reflexivity.
  - exists acc. split; [exact E|]. split; [|split; [exists []; symmetry; apply app_nil_r|auto]].
    pose proof Ec as Ec'. apply cur_idle in Ec. unfold pstep in E. rewrite Ec in E. injection E as <-.
    split; [eauto|]. split; [exact HF|]. split; [exact HFS|]. exists pend. split; [exact Hsub|]. rewrite Ec'. exact Hp.
Qed.

Lemma cons_HInv s seen acc : HInv s seen acc ->
  exists s', step s Cons = Ok s' /\ HInv s' seen acc /\ sent s' = sent s.
Proof.
  intros ((w & f & bk & HI) & HF & HFS & pend & Hsub & Hp).
  destruct (cstep_inv s w f bk HI) as (s1 & w1 & f1 & bk1 & E & HI1 & Hs & _ & Hl & Hpp & _).
  exists s1. split; [exact E|]. split; [|exact Hs]. split; [eauto|]. rewrite Hs, Hpp. eauto.
Qed.

Lemma hrun_HInv ls : forall s seen acc, HInv s seen acc -> Forall (sendable base) (hcalls ls) ->
  exists s' acc', hrun s ls = Ok s' /\ HInv s' (seen ++ hcalls ls) acc'.
Proof.
  induction ls as [|l ls IH]; intros s seen acc HI HS; cbn [hrun hcalls flat_map].
  - exists s, acc. rewrite app_nil_r. auto.
  - fold (hcalls ls). cbn [hcalls flat_map] in HS. fold (hcalls ls) in HS. apply Forall_app in HS as (HS1 & HS2).
    destruct l as [c| |]; cbn [hstep].
    + inversion HS1 as [|? ? Hc _]; subst. destruct (call_HInv s seen acc c HI Hc) as (r & s1 & E & E1 & HI1 & _). rewrite E. cbn [obind]. rewrite E1. cbn [obind].
      rewrite app_assoc. eapply IH; eassumption.
    + destruct (prod_HInv s seen acc HI) as (s1 & acc1 & E & HI1 & _). rewrite E. cbn [obind app]. eapply IH; eassumption.
    + destruct (cons_HInv s seen acc HI) as (s1 & E & HI1 & _). rewrite E. cbn [obind app]. eapply IH; eassumption.
Qed.

Lemma recs_found recs acc : Forall2 is_rec recs acc -> Forall (sendable base) acc ->
  map (found base) recs = map meaning acc /\ Forall (fun r => 32 <= zlen r) recs.
Proof.
  induction 1 as [|r c recs acc Hr HF IH]; intros HS; [split; [reflexivity|constructor]|].
  inversion HS as [|? ? Hc HS']; subst. destruct (record_ok base c Hc Hbase) as (r' & E & _ & H32 & _ & Hf & _).
  unfold is_rec in Hr. rewrite Hr in E. injection E as <-. destruct (IH HS') as (I1 & I2). cbn [map]. split; [congruence|constructor; assumption].
Qed.

Lemma init_HInv junk n : 4 <= n < 4294967296 ->
  exists s0, hLp_init junk n = Ok s0 /\ HInv s0 [] [] /\ recv s0 = [] /\ cp s0 = C_idle /\ len s0 = n.
Proof.
  intros Hn. destruct (init_inv junk n Hn) as (s0 & E0 & HI & A1 & A2 & A3 & A4 & A5). exists s0. split; [exact E0|].
  assert (pp s0 = P_idle /\ sent s0 = [] /\ recv s0 = [] /\ cp s0 = C_idle) as (B1 & B2 & B3 & B4).
  { unfold hLp_init in E0. destruct (0 <? n); [|injection E0 as <-; auto]. unfold store32 in E0. destruct (in_buf _ _ _); [|discriminate].
    injection E0 as <-. auto. }
  split; [|auto]. split; [eauto|]. rewrite B2, B1. split; [constructor|]. split; [constructor|]. exists []. split; [constructor|reflexivity].
Qed.

Lemma host_queue_aux junk n ls : 4 <= n < 4294967296 -> Forall (sendable base) (hcalls ls) ->
  exists s0 s acc, hLp_init junk n = Ok s0 /\ hrun s0 ls = Ok s /\ subseq acc (hcalls ls) /\ Forall2 is_rec (sent s) acc /\
    prefix (map (found base) (recv s)) (map meaning acc) /\ Forall (fun r => 32 <= zlen r) (recv s) /\
    exists k s', run s (repeat Cons k) = Ok s' /\ map (found base) (recv s') = map meaning acc.
Proof.
  intros Hn HS. destruct (init_HInv junk n Hn) as (s0 & E0 & HI0 & _). destruct (hrun_HInv ls s0 [] [] HI0 HS) as (s & acc & E & HI).
  exists s0, s, acc. split; [exact E0|]. split; [exact E|]. cbn [app] in HI. destruct HI as ((w & f & bk & HI) & HF & HFS & pend & Hsub & _).
  split; [eapply subseq_left; exact Hsub|]. split; [exact HF|].
  pose proof (inv_prefix _ _ _ _ HI) as (rest & Hpre). destruct (recs_found _ _ HF HFS) as (R1 & R2).
  split; [|split].
  - exists (map (found base) rest). rewrite <- R1, Hpre, map_app. reflexivity.
  - rewrite Hpre in R2. apply Forall_app in R2. tauto.
  - destruct (drain _ _ _ _ HI) as (j & s' & Ej & _ & _ & Hs & _ & _ & Hr). exists j, s'. split; [exact Ej|]. rewrite Hr, Hs. exact R1.
Qed.
End Session.
