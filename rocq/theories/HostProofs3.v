From Verif Require Import HostModel HostSpec MessageSpec MessageProofs MessageProofs2 PipeProofs PipeProofs2 HostProofs HostProofs2.
Require Import ZifyBool.

Lemma values_of_nosym mem l vs : values_of mem l = Some vs -> no_symbols vs -> forall p, ~ In (Some (Sym p)) l.
Proof.
  revert vs. induction l as [|[e|] l IH]; intros vs H Hn p Hin; cbn [values_of] in H; try discriminate; [destruct Hin|].
  destruct (value_of mem e) as [v|] eqn:Ev; [|discriminate]. destruct (values_of mem l) as [w|] eqn:Ew; [|discriminate]. injection H as <-.
  destruct Hin as [Hin|Hin].
  - injection Hin as ->. cbn in Ev. destruct (cstr mem p) as [t| |]; try discriminate. injection Ev as <-. apply (Hn t). left; reflexivity.
  - apply (IH w eq_refl (fun t Ht => Hn t (or_intror Ht)) p Hin).
Qed.

Lemma f2_len {A B} (R : A -> B -> Prop) l1 l2 : Forall2 R l1 l2 -> length l1 = length l2.
Proof. induction 1; cbn [length]; congruence. Qed.

Section Out.
Context (base : Z) (Hbase : 0 < base < 18446744073709000000).

Lemma dec_at_hash r h : at_ (repeat 0 (Z.to_nat base) ++ r) base (le 4 h) -> firstn 4 r = le 4 h.
Proof.
  intros H. apply at_firstn in H. rewrite le_length in H. rewrite skipn_app, skipn_all2, repeat_length, Nat.sub_diag in H by (rewrite repeat_length; lia). exact H.
Qed.

Lemma returned_ok c r h out : sendable base c -> call_record c = Ok r -> h = unle (firstn 4 r) -> zlen out = zlen r ->
  firstn (length r - 8) out = skipn 8 r -> returned (h, out) c.
Proof.
  intros HS Hr -> Hlo Hout. destruct (record_ok base c HS Hbase) as (r' & E & Hz & H32 & _ & _ & HAh & m' & R1 & R2 & R3 & R4 & R5 & R6 & R7 & R8 & R9 & R10 & R11).
  rewrite Hr in E. injection E as <-. split; [|split]; cbn [fst snd].
  - rewrite (dec_at_hash _ _ HAh). apply unle_le. destruct HS as (_ & _ & Hh & _). change (256 ^ Z.of_nat 4) with 4294967296. exact Hh.
  - lia.
  - intros vs Hv Hns. exists m'.
    assert (HA : at_ out 0 (enc_core m')).
    { pose proof R2 as (_ & HB). split; [lia|]. intros j Hj. rewrite <- HB by exact Hj. cbn [Z.to_nat Nat.add].
      pose proof (enc_core_length m') as Hel. assert (Hj2 : Z.of_nat j < 8 + 16 * zlen (m_el m')) by (unfold zlen in *; lia).
      rewrite nth_error_app2 by (rewrite repeat_length; lia). rewrite repeat_length.
      replace (Z.to_nat (base + 8) + j - Z.to_nat base)%nat with (8 + j)%nat by lia.
      assert (Hjr : (j < length r - 8)%nat) by (unfold zlen in *; lia).
      rewrite <- (firstn_skipn (length r - 8) out). rewrite Hout. rewrite nth_error_app1 by (rewrite skipn_length; exact Hjr).
      rewrite <- (firstn_skipn 8 r) at 2. rewrite nth_error_app2 by (rewrite firstn_length; lia). f_equal. rewrite firstn_length. unfold zlen in H32. lia. }
    split; [apply load_msg_at; assumption|]. split; [exact R3|]. rewrite Hv in R11.
    pose proof R11 as R11'. apply values_spec in R11' as (Hn & Hvo). pose proof (values_of_nosym _ _ _ Hvo Hns) as Hno.
    unfold values in *. assert ((0 <? m_n m') && (m_n m' <=? zlen (m_el m')) = true) as E by lia. rewrite E.
    eapply values_of_mono; [|exact Hvo]. intros p s Hin. destruct (Hno p Hin).
Qed.

Definition good_read (x : Z * bytes) (r : bytes) : Prop :=
  fst x = unle (firstn 4 r) /\ zlen (snd x) = zlen r /\ firstn (length r - 8) (snd x) = skipn 8 r.

Lemma osession_spec ls : forall s seen acc, HInv base s seen acc -> cp s = C_idle -> Forall (sendable base) (ocalls ls) ->
  match osession s ls with
  | Ok (s', res) => exists acc', HInv base s' (seen ++ ocalls ls) acc' /\ cp s' = C_idle /\ len s' = len s /\
       exists rs, recv s' = recv s ++ rs /\ Forall2 good_read res rs
  | AssertFail => exists ls1 maxlen ls2 s1 res1 r, ls = ls1 ++ OGet maxlen :: ls2 /\ osession s ls1 = Ok (s1, res1) /\ next_record s1 r /\ maxlen < zlen r
  | UB => exists ls1 maxlen ls2 s1 res1 r, ls = ls1 ++ OGet maxlen :: ls2 /\ osession s ls1 = Ok (s1, res1) /\ next_record s1 r /\ zlen r <= maxlen /\
       len s < next_pos s1 + 4 + zlen r + 8
  end.
Proof.
  induction ls as [|l ls IH]; intros s seen acc HI Hc HS; cbn [osession ocalls flat_map].
  - exists acc. rewrite app_nil_r. split; [exact HI|]. split; [exact Hc|]. split; [reflexivity|]. exists []. rewrite app_nil_r. split; [reflexivity|constructor].
  - fold (ocalls ls). cbn [ocalls flat_map] in HS. fold (ocalls ls) in HS. apply Forall_app in HS as (HS1 & HS2).
    destruct l as [c| |maxlen].
    + inversion HS1 as [|? ? Hcs _]; subst. destruct (call_HInv base Hbase s seen acc c HI Hcs) as (r & s1 & E & E1 & HI1 & A1 & A2 & A3 & A4).
      rewrite E. cbn [obind]. rewrite E1. cbn [obind]. specialize (IH s1 _ _ HI1 ltac:(congruence) HS2).
      destruct (osession s1 ls) as [[s' res]| |] eqn:Es.
      * rewrite <- app_assoc in IH. rewrite A1, A4 in IH. exact IH.
      * destruct IH as (ls1 & mx & ls2 & s2 & res1 & r2 & -> & B1 & B2). exists (OCall c :: ls1), mx, ls2, s2, res1, r2.
        split; [reflexivity|]. split; [|exact B2]. cbn [osession]. rewrite E. cbn [obind]. rewrite E1. exact B1.
      * destruct IH as (ls1 & mx & ls2 & s2 & res1 & r2 & -> & B1 & B2). exists (OCall c :: ls1), mx, ls2, s2, res1, r2. rewrite A4 in B2.
        split; [reflexivity|]. split; [|exact B2]. cbn [osession]. rewrite E. cbn [obind]. rewrite E1. exact B1.
    + destruct (prod_HInv base s seen acc HI) as (s1 & acc1 & E & HI1 & _ & A1 & A2 & A3 & A4). rewrite E. cbn [obind app].
      specialize (IH s1 _ _ HI1 ltac:(congruence) HS2).
      destruct (osession s1 ls) as [[s' res]| |] eqn:Es.
      * rewrite A1, A4 in IH. exact IH.
      * destruct IH as (ls1 & mx & ls2 & s2 & res1 & r2 & -> & B1 & B2). exists (OProd :: ls1), mx, ls2, s2, res1, r2.
        split; [reflexivity|]. split; [|exact B2]. cbn [osession]. rewrite E. exact B1.
      * destruct IH as (ls1 & mx & ls2 & s2 & res1 & r2 & -> & B1 & B2). exists (OProd :: ls1), mx, ls2, s2, res1, r2. rewrite A4 in B2.
        split; [reflexivity|]. split; [|exact B2]. cbn [osession]. rewrite E. exact B1.
    + pose proof (get_next_spec base Hbase s seen acc maxlen HI Hc) as G. cbn [app].
      destruct (get_next s maxlen) as [[o s1]| |] eqn:Eg; cbn [obind].
      * assert (G1 : HInv base s1 seen acc /\ cp s1 = C_idle /\ len s1 = len s /\ exists rs, recv s1 = recv s ++ rs /\
                    Forall2 good_read (match o with Some x => [x] | None => [] end) rs).
        { destruct o as [[h out]|].
          - destruct G as (r & rest & G1 & G2 & G3 & G4 & G5 & G6 & G7 & G8 & G9 & _). repeat (split; [assumption|]). exists [r]. split; [exact G3|].
            constructor; [split; [exact G7|split; assumption]|constructor].
          - destruct G as (G1 & G2 & G3 & G4 & G5 & G6). repeat (split; [assumption|]). exists []. rewrite app_nil_r. split; [exact G3|constructor]. }
        destruct G1 as (HI1 & Hc1 & Hl1 & rs1 & Hr1 & HF1). specialize (IH s1 _ _ HI1 Hc1 HS2).
        destruct (osession s1 ls) as [[s' res]| |] eqn:Es; cbn [obind].
        -- destruct IH as (acc' & I1 & I2 & I3 & rs & I4 & I5). exists acc'. split; [exact I1|]. split; [exact I2|]. split; [congruence|].
           exists (rs1 ++ rs). split; [rewrite I4, Hr1, app_assoc; reflexivity|].
           pose proof (Forall2_app HF1 I5) as HFA. destruct o; exact HFA.
        -- destruct IH as (ls1 & mx & ls2 & s2 & res1 & r2 & -> & B1 & B2). exists (OGet maxlen :: ls1), mx, ls2, s2. eexists. exists r2.
           split; [reflexivity|]. split; [|exact B2]. cbn [osession]. rewrite Eg. cbn [obind]. rewrite B1. reflexivity.
        -- destruct IH as (ls1 & mx & ls2 & s2 & res1 & r2 & -> & B1 & B2). exists (OGet maxlen :: ls1), mx, ls2, s2. eexists. exists r2. rewrite Hl1 in B2.
           split; [reflexivity|]. split; [|exact B2]. cbn [osession]. rewrite Eg. cbn [obind]. rewrite B1. reflexivity.
      * destruct G as (r & G). exists [], maxlen, ls, s, [], r. auto.
      * destruct G as (r & G). exists [], maxlen, ls, s, [], r. auto.
Qed.

Lemma reads_returned rs acc res : Forall2 is_rec rs acc -> Forall (sendable base) acc -> Forall2 good_read res rs -> Forall2 returned res acc.
Proof.
  intros HF. revert res. induction HF as [|r c rs acc Hr HF IH]; intros res HS HR; inversion HR as [|x ? res' ? (G1 & G2 & G3) HR']; subst; [constructor|].
  inversion HS as [|? ? Hc HS']; subst. constructor; [|apply IH; assumption]. destruct x as [h out].
  eapply returned_ok; try eassumption.
Qed.

Lemma out_queue_aux junk n ls : 4 <= n < 4294967296 -> Forall (sendable base) (ocalls ls) ->
  exists s0, hLp_init junk n = Ok s0 /\
  match osession s0 ls with
  | Ok (s, res) => exists acc, subseq acc (ocalls ls) /\ Forall2 (fun r c => call_record c = Ok r) (sent s) acc /\
       Forall2 returned res (firstn (length res) acc)
  | AssertFail => exists ls1 maxlen ls2 s1 res1 r, ls = ls1 ++ OGet maxlen :: ls2 /\ osession s0 ls1 = Ok (s1, res1) /\ next_record s1 r /\ maxlen < zlen r
  | UB => exists ls1 maxlen ls2 s1 res1 r, ls = ls1 ++ OGet maxlen :: ls2 /\ osession s0 ls1 = Ok (s1, res1) /\ next_record s1 r /\ zlen r <= maxlen /\
       n < next_pos s1 + 4 + zlen r + 8
  end.
Proof.
  intros Hn HS. destruct (init_HInv base junk n Hn) as (s0 & E0 & HI0 & Hr0 & Hc0 & Hl0). exists s0. split; [exact E0|].
  pose proof (osession_spec ls s0 [] [] HI0 Hc0 HS) as G. cbn [app] in G.
  destruct (osession s0 ls) as [[s res]| |]; [|exact G|rewrite Hl0 in G; exact G].
  destruct G as (acc & ((w & f & bk & HI) & HF & HFS & pend & Hsub & _) & _ & _ & rs & Hrs & HR). exists acc.
  split; [eapply subseq_left; exact Hsub|]. split; [exact HF|].
  rewrite Hr0 in Hrs. cbn [app] in Hrs. subst rs. pose proof (inv_prefix _ _ _ _ HI) as (rest & Hpre).
  rewrite Hpre in HF. apply Forall2_app_inv_l in HF as (a1 & a2 & F1 & F2 & ->).
  assert (Hlen : length res = length a1).
  { rewrite (f2_len _ _ _ HR). exact (f2_len _ _ _ F1). }
  rewrite Hlen, firstn_app, firstn_all, Nat.sub_diag. cbn [firstn]. rewrite app_nil_r.
  apply Forall_app in HFS as (HFS1 & _). eapply reads_returned; eassumption.
Qed.
End Out.
