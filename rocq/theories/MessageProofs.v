From Verif Require Import MessageModel MessageSpec.
Require Import ZifyBool.

(** * Memory *)
Definition at_ (mem : bytes) (a : Z) (bs : bytes) : Prop :=
  0 <= a /\ forall j, (j < length bs)%nat -> nth_error mem (Z.to_nat a + j) = nth_error bs j.

Lemma at_app mem a x y : at_ mem a (x ++ y) <-> at_ mem a x /\ at_ mem (a + zlen x) y.
Proof.
  unfold at_. split.
  - intros (Ha & H). rewrite app_length in H. split; (split; [pose proof (zlen_nonneg x); lia|]); intros j Hj.
    + rewrite H by lia. rewrite nth_error_app1 by lia. reflexivity.
    + replace (Z.to_nat (a + zlen x) + j)%nat with (Z.to_nat a + (length x + j))%nat by (unfold zlen; lia).
      rewrite H by lia. rewrite nth_error_app2 by lia. f_equal. lia.
  - intros ((Ha & H1) & (_ & H2)). split; [exact Ha|]. intros j Hj. rewrite app_length in Hj.
    destruct (Nat.lt_ge_cases j (length x)) as [Hlt|Hge].
    + rewrite nth_error_app1 by exact Hlt. apply H1; exact Hlt.
    + rewrite nth_error_app2 by exact Hge. rewrite <- H2 by lia. f_equal. unfold zlen. lia.
Qed.

Lemma at_firstn mem a bs : at_ mem a bs -> firstn (length bs) (skipn (Z.to_nat a) mem) = bs.
Proof.
  intros (Ha & H). revert H. generalize (Z.to_nat a) as k. clear Ha a. intros k. revert k mem.
  induction bs as [|b bs IH]; intros k mem H; [reflexivity|].
  pose proof (H 0%nat ltac:(cbn; lia)) as H0. cbn [nth_error] in H0. rewrite Nat.add_0_r in H0.
  assert (E : skipn k mem = b :: skipn (S k) mem).
  { clear - H0. revert mem H0. induction k as [|k IH]; intros mem H0; destruct mem as [|y mem]; cbn in *; try discriminate.
    - injection H0 as ->. reflexivity.
    - apply IH; exact H0. }
  rewrite E. cbn [length firstn]. f_equal. apply IH. intros j Hj.
  specialize (H (S j) ltac:(cbn; lia)). cbn [nth_error] in H. rewrite <- H. f_equal. lia.
Qed.

Lemma at_bound mem a bs : at_ mem a bs -> (0 < length bs)%nat -> a + zlen bs <= zlen mem.
Proof.
  intros (Ha & H) Hl. specialize (H (length bs - 1)%nat ltac:(lia)).
  assert (nth_error bs (length bs - 1) <> None) by (apply nth_error_Some; lia).
  rewrite <- H in H0. apply nth_error_Some in H0. unfold zlen. lia.
Qed.

Lemma store_spec mem a bs mem' : store mem a bs = Ok mem' ->
  0 <= a /\ a + zlen bs <= zlen mem /\ at_ mem' a bs /\ same_outside mem mem' a (a + zlen bs).
Proof.
  unfold store. destruct (0 <=? a) eqn:Ea; [|discriminate]. destruct (a + zlen bs <=? zlen mem) eqn:Eb; [|discriminate].
  cbn [andb]. intros H; injection H as <-. unfold zlen in *. apply Z.leb_le in Ea, Eb.
  split; [lia|]. split; [lia|]. split.
  - split; [lia|]. intros j Hj. rewrite nth_error_app2 by (rewrite firstn_length; lia).
    rewrite firstn_length. rewrite nth_error_app1 by lia. f_equal. lia.
  - split.
    + rewrite !app_length, firstn_length, skipn_length. lia.
    + intros k Hk. destruct (Nat.lt_ge_cases k (Z.to_nat a)) as [Hlt|Hge].
      * rewrite nth_error_app1 by (rewrite firstn_length; lia).
        rewrite <- (firstn_skipn (Z.to_nat a) mem) at 1. rewrite nth_error_app1 by (rewrite firstn_length; lia). reflexivity.
      * rewrite nth_error_app2 by (rewrite firstn_length; lia). rewrite firstn_length.
        rewrite nth_error_app2 by lia.
        rewrite <- (firstn_skipn (Z.to_nat a + length bs) mem) at 1.
        rewrite nth_error_app2 by (rewrite firstn_length; lia). rewrite firstn_length. f_equal. lia.
Qed.

Lemma store_ok mem a bs : 0 <= a -> a + zlen bs <= zlen mem -> exists mem', store mem a bs = Ok mem'.
Proof.
  intros H1 H2. unfold store. apply Z.leb_le in H1, H2. rewrite H1, H2. eexists; reflexivity.
Qed.

Lemma at_same m1 m2 lo hi a bs : same_outside m1 m2 lo hi -> a + zlen bs <= lo \/ hi <= a ->
  at_ m1 a bs -> at_ m2 a bs.
Proof.
  intros (_ & H) Hd (Ha & Hb). split; [exact Ha|]. intros j Hj. rewrite <- H by (unfold zlen in Hd; lia). apply Hb; exact Hj.
Qed.

Lemma same_trans m1 m2 m3 lo hi lo' hi' L H :
  same_outside m1 m2 lo hi -> same_outside m2 m3 lo' hi' -> L <= lo -> L <= lo' -> hi <= H -> hi' <= H ->
  same_outside m1 m3 L H.
Proof. intros (A1 & A2) (B1 & B2) ????. split; [congruence|]. intros k Hk. rewrite A2 by lia. apply B2; lia. Qed.

(** * C strings *)
Lemma scan_spec l s : scan l = Some s <->
  exists r, l = s ++ 0 :: r /\ Forall (fun b => b <> 0) s.
Proof.
  revert s; induction l as [|b l IH]; intros s; cbn [scan].
  - split; [discriminate|]. intros (r & H & _). destruct s; discriminate.
  - destruct (Z.eqb_spec b 0) as [->|Hb].
    + split.
      * intros H; injection H as <-. exists l. split; [reflexivity|constructor].
      * intros (r & H & HF). destruct s as [|y s]; [reflexivity|]. cbn [app] in H. injection H as Hy _.
        inversion HF as [|? ? Hn0 _]. exfalso. apply Hn0. congruence.
    + destruct (scan l) as [t|] eqn:E.
      * split.
        -- intros H; injection H as <-. destruct (proj1 (IH t) eq_refl) as (r & -> & HF). exists r. split; [reflexivity|].
           constructor; assumption.
        -- intros (r & H & HF). destruct s as [|y s]; cbn [app] in H; [injection H as H _; contradiction|].
           injection H as -> ->. inversion HF; subst. f_equal. f_equal.
           assert (G : Some t = Some s) by (apply IH; exists r; auto). congruence.
      * split; [discriminate|]. intros (r & H & HF). destruct s as [|y s]; cbn [app] in H; [injection H as H _; contradiction|].
        injection H as -> ->. inversion HF; subst.
        assert (G : None = Some s) by (apply IH; exists r; auto). discriminate.
Qed.

Lemma cstr_spec mem p s : cstr mem p = Ok s <-> 0 < p /\ Forall (fun b => b <> 0) s /\ at_ mem p (s ++ [0]).
Proof.
  unfold cstr. destruct (Z.ltb_spec 0 p) as [Hp|Hp]; [|split; [discriminate|lia]].
  destruct (scan (skipn (Z.to_nat p) mem)) as [t|] eqn:E.
  - apply scan_spec in E as (r & E & HF).
    assert (HA : at_ mem p (t ++ [0])).
    { split; [lia|]. intros j Hj. rewrite <- (firstn_skipn (Z.to_nat p) mem), E.
      assert (Hl : length (firstn (Z.to_nat p) mem) = Z.to_nat p).
      { rewrite firstn_length. pose proof (skipn_length (Z.to_nat p) mem) as HL. rewrite E, app_length in HL. cbn in HL. lia. }
      rewrite nth_error_app2 by lia. rewrite Hl. replace (Z.to_nat p + j - Z.to_nat p)%nat with j by lia.
      change (0 :: r) with ([0] ++ r). rewrite app_assoc. rewrite nth_error_app1 by exact Hj. reflexivity. }
    split.
    + intros H; injection H as <-. auto.
    + intros (_ & HF2 & HB). f_equal. apply at_firstn in HB.
      assert (G : scan (skipn (Z.to_nat p) mem) = Some s).
      { apply scan_spec. exists (skipn (length (s ++ [0])) (skipn (Z.to_nat p) mem)). split; [|exact HF2].
        rewrite <- (firstn_skipn (length (s ++ [0])) (skipn (Z.to_nat p) mem)) at 1. rewrite HB, <- app_assoc. reflexivity. }
      assert (G2 : scan (skipn (Z.to_nat p) mem) = Some t) by (apply scan_spec; exists r; auto). congruence.
  - split; [discriminate|]. intros (_ & HF2 & HB). apply at_firstn in HB.
    assert (G : scan (skipn (Z.to_nat p) mem) = Some s).
    { apply scan_spec. exists (skipn (length (s ++ [0])) (skipn (Z.to_nat p) mem)). split; [|exact HF2].
      rewrite <- (firstn_skipn (length (s ++ [0])) (skipn (Z.to_nat p) mem)) at 1. rewrite HB, <- app_assoc. reflexivity. }
    congruence.
Qed.

Lemma cstr_same m1 m2 lo hi p s : same_outside m1 m2 lo hi -> p + zlen s < lo \/ hi <= p ->
  cstr m1 p = Ok s -> cstr m2 p = Ok s.
Proof.
  intros HS Hd H. apply cstr_spec in H as (Hp & HF & HA). apply cstr_spec. split; [exact Hp|]. split; [exact HF|].
  eapply at_same; [exact HS| |exact HA]. rewrite zlen_app, zlen_cons, zlen_nil. lia.
Qed.

(** * Byte encoding *)
Lemma le_length k v : length (le k v) = k.
Proof. revert v; induction k; intros; cbn; auto. Qed.
Lemma unle_le k : forall v, 0 <= v < 256 ^ Z.of_nat k -> unle (le k v) = v.
Proof.
  induction k as [|k IH]; intros v Hv; cbn [le unle].
  - cbn in Hv. lia.
  - rewrite IH.
    + pose proof (Z.div_mod v 256). lia.
    + rewrite Nat2Z.inj_succ, Z.pow_succ_r in Hv by lia. split; [apply Z.div_pos; lia|]. apply Z.div_lt_upper_bound; lia.
Qed.
Lemma le_range k v : Forall (fun b => 0 <= b < 256) (le k v).
Proof. revert v; induction k; intros; cbn [le]; constructor; [apply Z.mod_pos_bound; lia|auto]. Qed.

Lemma load_at mem a k v : at_ mem a (le k v) -> (0 < k)%nat -> 0 <= v < 256 ^ Z.of_nat k ->
  load mem a (Z.of_nat k) = Ok v.
Proof.
  intros HA Hk Hv. unfold load. pose proof (at_bound _ _ _ HA) as HB. rewrite le_length in HB. specialize (HB Hk).
  unfold zlen in HB. rewrite le_length in HB. destruct HA as (Ha & HA').
  assert ((0 <=? a) && (a + Z.of_nat k <=? zlen mem) = true) as -> by (unfold zlen; lia).
  rewrite Nat2Z.id. pose proof (at_firstn mem a (le k v) (conj Ha HA')) as E. rewrite le_length in E. rewrite E, unle_le by exact Hv.
  reflexivity.
Qed.

Lemma load_at4 mem a v : at_ mem a (le 4 v) -> 0 <= v < 4294967296 -> load mem a 4 = Ok v.
Proof. intros H Hv. apply (load_at mem a 4 v H); [lia|cbn; lia]. Qed.
Lemma load_at2 mem a v : at_ mem a (le 2 v) -> 0 <= v < 65536 -> load mem a 2 = Ok v.
Proof. intros H Hv. apply (load_at mem a 2 v H); [lia|cbn; lia]. Qed.
Lemma load_at8 mem a v : at_ mem a (le 8 v) -> 0 <= v < 18446744073709551616 -> load mem a 8 = Ok v.
Proof. intros H Hv. apply (load_at mem a 8 v H); [lia|cbn; lia]. Qed.

Lemma enc_elem_length e : length (enc_elem e) = 16%nat.
Proof. destruct e as [e|]; cbn [enc_elem]; [|reflexivity]. rewrite !app_length, !le_length. reflexivity. Qed.

Definition data_ok (e : elem) : Prop :=
  match e with Flt b => 0 <= b < 4294967296 | Hsh h => 0 <= h < 4294967296
             | Sym p => 0 <= p < 18446744073709551616 | Bang => True end.

Lemma load_elem_at mem a e : at_ mem a (enc_elem (Some e)) -> data_ok e -> load_elem mem a = Ok e.
Proof.
  intros HA Hd. cbn [enc_elem] in HA. apply at_app in HA as (H1 & HA). apply at_app in HA as (_ & H2).
  unfold zlen in H2. rewrite le_length in H2. change (Z.of_nat (length [0;0;0;0])) with 4 in H2.
  replace (a + Z.of_nat 4 + 4) with (a + 8) in H2 by lia.
  unfold load_elem. rewrite (load_at4 mem a (tag e) H1) by (destruct e; cbn; lia). cbn [obind].
  destruct e as [|b|p|h]; cbn [tag data data_ok] in *.
  - reflexivity.
  - change 8%nat with (4 + 4)%nat in H2.
    assert (G : at_ mem (a + 8) (le 4 b)).
    { assert (E : le (4 + 4) b = le 4 b ++ le 4 (b / 256 / 256 / 256 / 256)) by reflexivity. rewrite E in H2. apply at_app in H2. tauto. }
    rewrite (load_at4 mem (a + 8) b G) by lia. reflexivity.
  - rewrite (load_at8 mem (a + 8) p H2) by lia. reflexivity.
  - change 8%nat with (4 + 4)%nat in H2.
    assert (G : at_ mem (a + 8) (le 4 h)).
    { assert (E : le (4 + 4) h = le 4 h ++ le 4 (h / 256 / 256 / 256 / 256)) by reflexivity. rewrite E in H2. apply at_app in H2. tauto. }
    rewrite (load_at4 mem (a + 8) h G) by lia. reflexivity.
Qed.

Definition all_set (l : list (option elem)) : Prop :=
  Forall (fun e => match e with Some e => data_ok e | None => False end) l.

Lemma load_elems_at mem l : forall a, at_ mem a (flat_map enc_elem l) -> all_set l ->
  load_elems mem a (length l) = Ok l.
Proof.
  induction l as [|e l IH]; intros a HA HS; cbn [length load_elems flat_map] in *; [reflexivity|].
  apply at_app in HA as (H1 & H2). unfold zlen in H2. rewrite enc_elem_length in H2. change (Z.of_nat 16) with 16 in H2.
  inversion HS as [|? ? He Hl]; subst. destruct e as [e|]; [|contradiction].
  rewrite (load_elem_at _ _ _ H1 He). cbn [obind]. rewrite (IH _ H2 Hl). reflexivity.
Qed.

Lemma enc_core_length m : zlen (enc_core m) = 8 + 16 * zlen (m_el m).
Proof.
  unfold enc_core. rewrite !zlen_app. unfold zlen. rewrite !le_length.
  assert (G : forall l, length (flat_map enc_elem l) = (16 * length l)%nat).
  { induction l as [|e l IH]; [reflexivity|]. cbn [flat_map length]. rewrite app_length, enc_elem_length, IH. lia. }
  rewrite G. lia.
Qed.

Lemma load_msg_at mem a m : at_ mem a (enc_core m) -> 0 <= m_ts m < 4294967296 -> m_n m = zlen (m_el m) ->
  m_n m < 65536 -> 0 <= m_nb m < 65536 -> all_set (m_el m) -> load_msg mem a = Ok m.
Proof.
  intros HA Ht Hn Hn2 Hb HS. unfold enc_core in HA.
  apply at_app in HA as (H1 & HA). apply at_app in HA as (H2 & HA). apply at_app in HA as (H3 & H4).
  unfold zlen in H2, H3, H4. rewrite !le_length in *.
  replace (a + Z.of_nat 4) with (a + 4) in * by lia. replace (a + 4 + Z.of_nat 2) with (a + 6) in * by lia.
  replace (a + 6 + Z.of_nat 2) with (a + 8) in * by lia.
  unfold load_msg. rewrite (load_at4 mem a _ H1) by lia. cbn [obind].
  rewrite (load_at2 mem (a + 4) _ H2) by (pose proof (zlen_nonneg (m_el m)); lia). cbn [obind].
  rewrite (load_at2 mem (a + 6) _ H3) by lia. cbn [obind].
  rewrite Hn. unfold zlen. rewrite Nat2Z.id. rewrite (load_elems_at _ _ _ H4 HS). cbn [obind].
  f_equal. destruct m as [t n b l]; cbn in *. unfold zlen in Hn. congruence.
Qed.

(** * The copy loop *)
Lemma values_of_same m1 m2 lo hi l : same_outside m1 m2 lo hi ->
  (forall p s, In (Some (Sym p)) l -> cstr m1 p = Ok s -> p + zlen s < lo \/ hi <= p) ->
  forall vs, values_of m1 l = Some vs -> values_of m2 l = Some vs.
Proof.
  intros HS. induction l as [|[e|] l IH]; intros Hd vs H; cbn [values_of] in *; try assumption; try discriminate.
  destruct (value_of m1 e) as [v|] eqn:Ev; [|discriminate]. destruct (values_of m1 l) as [vs'|] eqn:El; [|discriminate].
  injection H as <-. rewrite (IH (fun p s Hp => Hd p s (or_intror Hp)) vs' eq_refl).
  assert (G : value_of m2 e = Some v).
  { destruct e as [|b|p|h]; cbn [value_of] in *; try assumption.
    destruct (cstr m1 p) as [s| |] eqn:Ec; try discriminate. injection Ev as <-.
    rewrite (cstr_same m1 m2 lo hi p s HS (Hd p s (or_introl eq_refl) Ec) Ec). reflexivity. }
  rewrite G. reflexivity.
Qed.

Definition texts (vs : list value) : Z := fold_right Z.add 0 (map text_bytes vs).
Lemma texts_cons v vs : texts (v :: vs) = text_bytes v + texts vs.
Proof. reflexivity. Qed.
Lemma text_nonneg v : 0 <= text_bytes v.
Proof. destruct v; cbn [text_bytes]; try lia. pose proof (zlen_nonneg s); lia. Qed.
Lemma texts_nonneg vs : 0 <= texts vs.
Proof. induction vs as [|v vs IH]; [unfold texts; cbn; lia|]. rewrite texts_cons. pose proof (text_nonneg v). lia. Qed.

Lemma copy_syms_ok hi els : forall mem len len_r p vs,
  values_of mem els = Some vs -> 0 < p -> len_r + texts vs <= len -> p + texts vs <= hi -> hi <= zlen mem ->
  zlen mem < 18446744073709551616 ->
  (forall q s, In (Some (Sym q)) els -> cstr mem q = Ok s -> q + zlen s < p \/ hi <= q) ->
  Forall elem_ok els ->
  exists mem' els', copy_syms mem len len_r p els = Ok (mem', els', len_r + texts vs) /\
    same_outside mem mem' p (p + texts vs) /\ values_of mem' els' = Some vs /\
    (forall q, In (Some (Sym q)) els' -> exists s, cstr mem' q = Ok s /\ p <= q /\ q + zlen s + 1 <= p + texts vs) /\
    length els' = length els /\ all_set els'.
Proof.
  induction els as [|e els IH]; intros mem len len_r p vs Hv Hp Hlen Hhi Hm Hm64 Hd Hok; cbn [values_of copy_syms] in *.
  - injection Hv as <-. cbn in *. exists mem, []. rewrite Z.add_0_r. split; [reflexivity|]. split; [split; [reflexivity|auto]|].
    split; [reflexivity|]. split; [intros q []|]. split; [reflexivity|constructor].
  - destruct e as [e|]; [|discriminate].
    destruct (value_of mem e) as [v|] eqn:Ev; [|discriminate]. destruct (values_of mem els) as [vs'|] eqn:El; [|discriminate].
    injection Hv as <-. inversion Hok as [|? ? Hoe Hokl]; subst.
    rewrite texts_cons in *. pose proof (texts_nonneg vs') as Htn.
    assert (NS : is_s e = false -> text_bytes v = 0 /\ 
       exists mem' els', copy_syms mem len len_r p els = Ok (mem', els', len_r + texts vs') /\
        same_outside mem mem' p (p + texts vs') /\ values_of mem' els' = Some vs' /\
        (forall q, In (Some (Sym q)) els' -> exists s, cstr mem' q = Ok s /\ p <= q /\ q + zlen s + 1 <= p + texts vs') /\
        length els' = length els /\ all_set els').
    { intros Hs. assert (Ht0 : text_bytes v = 0) by (destruct e; cbn in Ev, Hs; try discriminate; injection Ev as <-; reflexivity).
      split; [exact Ht0|]. apply IH; try assumption; try lia. intros q s Hq. apply Hd. right; exact Hq. }
    destruct e as [|b|q|h].
    + destruct (NS eq_refl) as (Ht0 & mem' & els' & C1 & C2 & C3 & C4 & C5 & C6). rewrite C1. cbn [obind]. rewrite Ht0, Z.add_0_l.
      exists mem', (Some Bang :: els'). split; [reflexivity|]. split; [exact C2|].
      injection Ev as <-. cbn [values_of value_of]. rewrite C3. split; [reflexivity|].
      split; [intros q [Hq|Hq]; [discriminate|apply C4; exact Hq]|]. split; [cbn; lia|]. constructor; [exact I|exact C6].
    + destruct (NS eq_refl) as (Ht0 & mem' & els' & C1 & C2 & C3 & C4 & C5 & C6). rewrite C1. cbn [obind]. rewrite Ht0, Z.add_0_l.
      exists mem', (Some (Flt b) :: els'). split; [reflexivity|]. split; [exact C2|].
      injection Ev as <-. cbn [values_of value_of]. rewrite C3. split; [reflexivity|].
      split; [intros q [Hq|Hq]; [discriminate|apply C4; exact Hq]|]. split; [cbn; lia|]. constructor; [exact Hoe|exact C6].
    + clear NS. cbn [value_of] in Ev. destruct (cstr mem q) as [s| |] eqn:Ec; try discriminate. injection Ev as <-.
      cbn [obind text_bytes] in *. pose proof (zlen_nonneg s) as Hsn.
      assert (len_r + (zlen s + 1) <=? len = true) as -> by lia.
      destruct (store_ok mem p (s ++ [0])) as (mem1 & Est); [lia|rewrite zlen_app, zlen_cons, zlen_nil; lia|].
      rewrite Est. cbn [obind]. apply store_spec in Est as (_ & _ & HA & HS1). rewrite zlen_app, zlen_cons, zlen_nil in HS1.
      assert (Hv1 : values_of mem1 els = Some vs').
      { eapply values_of_same; [exact HS1| |exact El]. intros p0 s0 Hin Hc0.
        destruct (Hd p0 s0 (or_intror Hin) Hc0); [left; lia|right; lia]. }
      destruct (IH mem1 len (len_r + (zlen s + 1)) (p + (zlen s + 1)) vs') as (mem' & els' & C1 & C2 & C3 & C4 & C5 & C6).
      * exact Hv1.
      * lia.
      * lia.
      * lia.
      * unfold zlen. rewrite <- (proj1 HS1). exact Hm.
      * unfold zlen. rewrite <- (proj1 HS1). exact Hm64.
      * intros q0 s0 Hin Hc0.
        (* the same string is at q0 in mem *)
        assert (G : exists s1, cstr mem q0 = Ok s1).
        { clear - El Hin. revert vs' El. induction els as [|[e|] els IH]; intros vs' El; cbn [values_of] in El; try discriminate; [destruct Hin|].
          destruct (value_of mem e) as [v|] eqn:Ev; [|discriminate]. destruct (values_of mem els) as [w|] eqn:Ew; [|discriminate].
          destruct Hin as [Hin|Hin]; [|eapply IH; [exact Hin|reflexivity]]. injection Hin as ->. cbn in Ev.
          destruct (cstr mem q0) as [s1| |]; try discriminate. eauto. }
        destruct G as (s1 & Hs1). pose proof (Hd q0 s1 (or_intror Hin) Hs1) as Hd1.
        assert (Hc1 : cstr mem1 q0 = Ok s1) by (eapply cstr_same; [exact HS1| |exact Hs1]; lia).
        assert (s1 = s0) by congruence. subst s1. lia.
      * exact Hokl.
      * rewrite C1. cbn [obind]. exists mem', (Some (Sym p) :: els').
        assert (Hcp : cstr mem' p = Ok s).
        { eapply cstr_same; [exact C2| |]; [left; lia|]. apply cstr_spec. split; [lia|]. split; [|exact HA].
          apply cstr_spec in Ec. tauto. }
        split; [f_equal; f_equal; lia|]. split; [eapply same_trans; [exact HS1|exact C2|lia|lia|lia|lia]|].
        cbn [values_of value_of]. rewrite Hcp, C3. split; [reflexivity|].
        split; [|split; [cbn; lia|]].
        -- intros q0 [Hq|Hq].
           ++ injection Hq as <-. exists s. split; [exact Hcp|]. lia.
           ++ destruct (C4 q0 Hq) as (s0 & A1 & A2 & A3). exists s0. split; [exact A1|]. lia.
        -- constructor; [|exact C6]. cbn. lia.
    + destruct (NS eq_refl) as (Ht0 & mem' & els' & C1 & C2 & C3 & C4 & C5 & C6). rewrite C1. cbn [obind]. rewrite Ht0, Z.add_0_l.
      exists mem', (Some (Hsh h) :: els'). split; [reflexivity|]. split; [exact C2|].
      injection Ev as <-. cbn [values_of value_of]. rewrite C3. split; [reflexivity|].
      split; [intros q [Hq|Hq]; [discriminate|apply C4; exact Hq]|]. split; [cbn; lia|]. constructor; [exact Hoe|exact C6].
Qed.
