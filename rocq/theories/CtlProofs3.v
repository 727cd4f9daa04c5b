(** Message boxes and switch-case. *)
From Coq Require Import ZifyBool.
From Verif Require Import MessageModel MessageSpec MessageProofs MessageProofs2 CtlModel CtlSpec CtlProofs CtlProofs2 HashProofs HashProps.

Lemma values_of_app mem a : forall b va vb, values_of mem a = Some va -> values_of mem b = Some vb ->
  values_of mem (a ++ b) = Some (va ++ vb).
Proof.
  induction a as [|[e|] a IH]; intros b va vb Ha Hb; cbn [values_of app] in *; try discriminate.
  - injection Ha as <-. exact Hb.
  - destruct (value_of mem e); [|discriminate]. destruct (values_of mem a) as [va'|] eqn:E; [|discriminate]. injection Ha as <-.
    rewrite (IH b va' vb eq_refl Hb). reflexivity.
Qed.

(** A message of [total] elements, the first ones set to the values [vs]. *)
Definition partial_msg (mem : bytes) (ts total : Z) (m : msg) (vs : list value) : Prop :=
  exists els k, m_el m = els ++ repeat None k /\ values_of mem els = Some vs /\ zlen els + Z.of_nat k = total /\
    m_n m = total /\ m_ts m = ts /\ m_nb m = u16 (8 + 16 * total + texts vs).

Lemma set_nth_mid {A} (els : list (option A)) e k :
  set_nth (length els) (Some e) (els ++ None :: repeat None k) = (els ++ [Some e]) ++ repeat None k.
Proof. induction els as [|x els IH]; cbn; [reflexivity|]. f_equal. exact IH. Qed.

Lemma texts_app a b : texts (a ++ b) = texts a + texts b.
Proof. unfold texts. rewrite map_app. induction (map text_bytes a); cbn; lia. Qed.

Lemma partial_set mem ts total m vs e v : partial_msg mem ts total m vs -> zlen vs < total -> value_of mem e = Some v ->
  exists m', set_elem m (zlen vs) e = Ok m' /\ m_nb m' = m_nb m /\
    (text_bytes v = 0 -> partial_msg mem ts total m' (vs ++ [v])) /\
    partial_msg mem ts total (mkMsg (m_ts m') (m_n m') (u16 (8 + 16 * total + texts (vs ++ [v]))) (m_el m')) (vs ++ [v]).
Proof.
  intros (els & k & A & B & C & D & E & F) Hlt Hv. pose proof (values_of_length _ _ _ B) as L.
  unfold set_elem. rewrite D. assert (zlen vs <? total = true) as -> by lia.
  destruct k as [|k]; [unfold zlen in *; lia|].
  assert (Hz : zlen (m_el m) = total) by (rewrite A, zlen_app; unfold zlen in *; rewrite repeat_length; lia).
  rewrite Hz. assert ((0 <=? zlen vs) && (zlen vs <? total) = true) as -> by (pose proof (zlen_nonneg vs); lia).
  assert (Hel : set_nth (Z.to_nat (zlen vs)) (Some e) (m_el m) = (els ++ [Some e]) ++ repeat None k).
  { rewrite A. unfold zlen. rewrite Nat2Z.id, L. cbn [repeat]. apply set_nth_mid. }
  assert (Hvals : values_of mem (els ++ [Some e]) = Some (vs ++ [v])).
  { apply values_of_app; [exact B|]. cbn [values_of]. rewrite Hv. reflexivity. }
  rewrite Hel. eexists. split; [reflexivity|]. cbn [m_nb m_n m_ts m_el].
  assert (zlen (els ++ [Some e]) + Z.of_nat k = total) by (rewrite zlen_app; unfold zlen in *; cbn [length]; lia).
  split; [reflexivity|]. split.
  - intros Ht. exists (els ++ [Some e]), k. cbn [m_nb m_n m_ts m_el]. repeat (split; [assumption || reflexivity|]).
    rewrite texts_app, F. f_equal. unfold texts. cbn [map fold_right]. lia.
  - exists (els ++ [Some e]), k. cbn [m_nb m_n m_ts m_el]. repeat (split; [assumption || reflexivity|]). reflexivity.
Qed.

Lemma partial_setSymbol mem ts total m vs p s : partial_msg mem ts total m vs -> zlen vs < total -> cstr mem p = Ok s ->
  exists m', msg_setSymbol mem m (zlen vs) p = Ok m' /\ partial_msg mem ts total m' (vs ++ [VSymbol s]).
Proof.
  intros HP Hlt Hs. assert (Hp : 0 < p) by (apply cstr_spec in Hs; tauto).
  destruct (partial_set mem ts total m vs (Sym p) (VSymbol s) HP Hlt) as (m' & A & B & _ & C); [cbn [value_of]; rewrite Hs; reflexivity|].
  unfold msg_setSymbol. destruct HP as (els & k & _ & _ & _ & D & _ & F). rewrite D. assert (zlen vs <? total = true) as -> by lia.
  destruct (p =? 0) eqn:E; [lia|]. cbn [negb]. rewrite A. cbn [obind]. rewrite Hs. cbn [obind]. eexists. split; [reflexivity|].
  rewrite B, F. replace (u16 (u16 (8 + 16 * total + texts vs) + u16 (zlen s + 1))) with (u16 (8 + 16 * total + texts (vs ++ [VSymbol s]))); [exact C|].
  rewrite texts_app. unfold texts at 2. cbn [map fold_right text_bytes]. unfold u16. rewrite <- Zplus_mod. f_equal. lia.
Qed.

Lemma box_fill_ok mem n ts total vs : values mem n = Some vs -> forall b ws m done vals,
  Forall2 (box_value_of mem) b ws -> Forall2 (fun w v => fill vs w = Some v) ws vals ->
  partial_msg mem ts total m done -> zlen done + zlen b = total ->
  exists m', box_fill mem n m (zlen done) b = Ok m' /\ partial_msg mem ts total m' (done ++ vals).
Proof.
  intros Hn b. induction b as [|e b IH]; intros ws m done vals HB HF HP Hl.
  - inversion HB; subst. inversion HF; subst. exists m. cbn. rewrite app_nil_r. auto.
  - inversion HB as [|? w ? ws' He HB']; subst. inversion HF as [|? v ? vals' Hw HF']; subst. cbn [box_fill].
    rewrite zlen_cons in *.
    assert (Hlt : zlen done < zlen done + (1 + zlen b)) by (pose proof (zlen_nonneg b); lia).
    assert (exists m1, match e with
               | BNum b => msg_setFloat m (zlen done) b
               | BBang => msg_setBang m (zlen done)
               | BArg k => msg_setElementToFrom mem m (zlen done) n (k - 1)
               | BSym p => msg_setSymbol mem m (zlen done) p
               end = Ok m1 /\ partial_msg mem ts (zlen done + (1 + zlen b)) m1 (done ++ [v])) as (m1 & S1 & S2).
    { destruct e as [bits| |k|p], w as [bits'| |k'|s]; try contradiction; cbn [box_value_of] in He; subst; cbn [fill] in Hw.
      - injection Hw as <-. destruct (partial_set mem ts _ m done (Flt bits') (VFloat bits') HP Hlt eq_refl) as (m' & A & _ & C & _).
        exists m'. split; [exact A|]. apply C. reflexivity.
      - injection Hw as <-. destruct (partial_set mem ts _ m done Bang VBang HP Hlt eq_refl) as (m' & A & _ & C & _).
        exists m'. split; [exact A|]. apply C. reflexivity.
      - destruct (0 <? k') eqn:Ek; [|discriminate]. unfold msg_setElementToFrom.
        destruct (values_elem mem n vs (k' - 1) v Hn ltac:(lia) Hw) as (_ & e & A & B). rewrite A. cbn [obind].
        pose proof B as Hvk. apply value_kind in B.
        destruct e as [|bits|p|h], v as [|bits'|s|h']; try contradiction; subst.
        + destruct (partial_set mem ts _ m done Bang VBang HP Hlt Hvk) as (m' & A' & _ & C & _). exists m'. split; [exact A'|]. apply C. reflexivity.
        + destruct (partial_set mem ts _ m done (Flt bits) _ HP Hlt Hvk) as (m' & A' & _ & C & _). exists m'. split; [exact A'|]. apply C. reflexivity.
        + apply partial_setSymbol; assumption.
        + destruct (partial_set mem ts _ m done (Hsh h) _ HP Hlt Hvk) as (m' & A' & _ & C & _). exists m'. split; [exact A'|]. apply C. reflexivity.
      - injection Hw as <-. apply partial_setSymbol; assumption. }
    rewrite S1. cbn [obind]. destruct (IH ws' m1 (done ++ [v]) vals' HB' HF' S2) as (m' & T1 & T2).
    { rewrite zlen_app. unfold zlen. cbn [length]. lia. }
    exists m'. rewrite zlen_app in T1. change (zlen [v]) with 1 in T1. rewrite <- app_assoc in T2. split; assumption.
Qed.

Lemma box_ok mem n vs b ws vals : values mem n = Some vs -> Forall2 (box_value_of mem) b ws ->
  Forall2 (fun w v => fill vs w = Some v) ws vals -> 0 < zlen b < 65536 ->
  exists m, (let! m0 := msg_init (length b) (zlen b) (m_ts n) in box_fill mem n m0 0 b) = Ok m /\
    values mem m = Some vals /\ m_ts m = m_ts n /\ (needed vals < 65536 -> m_nb m = needed vals).
Proof.
  intros Hn HB HF Hl. unfold msg_init, msg_getCoreSize. assert (0 <? zlen b = true) as -> by lia. cbn [obind].
  rewrite (u16_id (zlen b)) by lia.
  destruct (box_fill_ok mem n (m_ts n) (zlen b) vs Hn b ws (mkMsg (m_ts n) (zlen b) (u16 (core (zlen b))) (repeat None (length b))) [] vals HB HF)
    as (m' & A & els & k & B1 & B2 & B3 & B4 & B5 & B6).
  - exists [], (length b). cbn [m_el m_n m_ts m_nb app]. repeat (split; [reflexivity|]). f_equal. unfold core, texts. cbn [map fold_right]. lia.
  - reflexivity.
  - change (zlen (@nil value)) with 0 in A. cbn [app] in *. exists m'. split; [exact A|].
    assert (L : length vals = length b).
    { clear -HB HF. revert vals HF. induction HB; intros vals HF; inversion HF; subst; [reflexivity|]. cbn. f_equal. eauto. }
    pose proof (values_of_length _ _ _ B2) as L2.
    assert (k = 0)%nat by (unfold zlen in *; lia). subst k. cbn [repeat] in B1. rewrite app_nil_r in B1.
    split; [|split; [exact B5|]].
    + unfold values. rewrite B4, B1. assert ((0 <? zlen b) && (zlen b <=? zlen els) = true) as -> by (unfold zlen in *; lia).
      rewrite firstn_all2 by (unfold zlen; lia). exact B2.
    + intros Hsz. rewrite B6. unfold needed in *. fold (texts vals) in *.
      replace (zlen b) with (zlen vals) by (unfold zlen; lia). apply u16_id. pose proof (texts_nonneg vals). pose proof (zlen_nonneg vals). lia.
Qed.

Lemma boxes_ok mem n vs boxes : values mem n = Some vs ->
  Forall (fun b => 0 < zlen b < 65536 /\ exists ws vals, Forall2 (box_value_of mem) b ws /\ Forall2 (fun w v => fill vs w = Some v) ws vals) boxes ->
  exists ms, cMsg_sendMessage mem boxes n = Ok ms /\ Forall2 (fun b m => box_message mem vs b (m_ts n) m) boxes ms.
Proof.
  intros Hn H. induction H as [|b boxes (Hl & ws & vals & HB & HF) H IH]; cbn [cMsg_sendMessage].
  - exists []. split; [reflexivity|constructor].
  - destruct (box_ok mem n vs b ws vals Hn HB HF Hl) as (m & A & B & C & D). destruct IH as (ms & I1 & I2).
    unfold obind in A at 1. destruct (msg_init (length b) (zlen b) (m_ts n)) as [m0| |] eqn:E0; try discriminate. cbn [obind].
    rewrite A. cbn [obind]. rewrite I1. cbn [obind]. exists (m :: ms). split; [reflexivity|]. constructor; [|exact I2].
    exists ws, vals. auto.
Qed.

(** ** switch-case *)
Lemma no_dups_spec l : no_dups l = true <-> NoDup l.
Proof.
  induction l as [|h l IH]; cbn [no_dups]; [split; [constructor|reflexivity]|].
  rewrite andb_true_iff, IH, negb_true_iff. split.
  - intros (A & B). constructor; [|exact B]. intros C. assert (existsb (Z.eqb h) l = true) by (apply existsb_exists; exists h; split; [exact C|apply Z.eqb_refl]). congruence.
  - intros H. inversion H as [|? ? A B]; subst. split; [|exact B]. destruct (existsb (Z.eqb h) l) eqn:E; [|reflexivity].
    apply existsb_exists in E as (x & E1 & E2). apply Z.eqb_eq in E2. subst x. contradiction.
Qed.
Lemma find_case_spec h l : forall k, match find_case h l k with
  | Some j => k <= j /\ nth_error l (Z.to_nat (j - k)) = Some h
  | None => ~ In h l
  end.
Proof.
  induction l as [|x l IH]; intros k; cbn [find_case]; [intros []|]. destruct (Z.eqb_spec h x) as [-> | N].
  - split; [lia|]. rewrite Z.sub_diag. reflexivity.
  - specialize (IH (k + 1)). destruct (find_case h l (k + 1)) as [j|].
    + destruct IH as (A & B). split; [lia|]. replace (Z.to_nat (j - k)) with (S (Z.to_nat (j - (k + 1)))) by lia. exact B.
    + intros [C|C]; [congruence|exact (IH C)].
Qed.

Lemma switchcase_ok mem hs m vs v : values mem m = Some vs -> selected vs = Some v ->
  exists k, switchcase_outlet mem hs m = Ok k /\
    ((0 <= k < zlen hs /\ nth_error hs (Z.to_nat k) = Some (key v)) \/ (k = zlen hs /\ ~ In (key v) hs)).
Proof.
  intros H Hs. unfold switchcase_outlet. destruct vs as [|v0 vs]; [discriminate|]. cbn [selected] in Hs.
  rewrite (getHash_key mem m (v0 :: vs) 0 v0 H ltac:(lia) eq_refl). cbn [obind]. fold SYMBOL_HASH in Hs.
  assert (Hsel : msg_getHash mem m (if key v0 =? SYMBOL_HASH then 1 else 0) = Ok (key v)).
  { destruct (key v0 =? SYMBOL_HASH) eqn:E.
    - apply (getHash_key mem m (v0 :: vs) 1 v H); [lia|]. change (Z.to_nat 1) with 1%nat. destruct vs; exact Hs.
    - injection Hs as <-. apply (getHash_key mem m (v0 :: vs) 0 v0 H); [lia|reflexivity]. }
  cbv zeta. rewrite Hsel. cbn [obind]. eexists. split; [reflexivity|].
  pose proof (find_case_spec (key v) hs 0) as F. destruct (find_case (key v) hs 0) as [j|].
  - destruct F as (A & B). rewrite Z.sub_0_r in B. left. split; [|exact B].
    assert (Z.to_nat j < length hs)%nat by (apply nth_error_Some; congruence). unfold zlen. lia.
  - right. auto.
Qed.

Lemma label_hashes_nth l : forall hs, label_hashes l = Some hs ->
  length hs = length l /\ forall k c, nth_error l k = Some c -> exists h, label_hash c = Some h /\ nth_error hs k = Some h.
Proof.
  induction l as [|c l IH]; intros hs H; cbn [label_hashes] in H.
  - injection H as <-. split; [reflexivity|]. intros [|k]; discriminate.
  - destruct (label_hash c) as [h|] eqn:E; [|discriminate]. destruct (label_hashes l) as [hs'|]; [|discriminate]. injection H as <-.
    destruct (IH hs' eq_refl) as (A & B). split; [cbn; lia|]. intros [|k] c' Hc; cbn [nth_error] in *.
    + injection Hc as <-. eauto.
    + apply B. exact Hc.
Qed.

Lemma label_key c v : plain_label c -> (v = VBang \/ c <> LStr [98; 97; 110; 103]) -> names c v -> label_hash c = Some (key v).
Proof.
  intros HP HB HN. destruct c as [b|s]; cbn [label_hash plain_label] in *.
  - destruct v; cbn [names] in HN; try contradiction. subst. reflexivity.
  - destruct v as [| |s'|h]; cbn [names] in HN; try contradiction; subst; cbn [key].
    + reflexivity.
    + destruct HP. apply hash_ascii_agree; [assumption| |assumption]. destruct HB as [HB|HB]; congruence.
    + destruct HP. apply hash_ascii_agree; [assumption| |assumption]. destruct HB as [HB|HB]; congruence.
Qed.
