(** pack, var, if, casts, message boxes and switch-case refine their specification. *)
From Coq Require Import ZifyBool.
From Verif Require Import MessageModel MessageSpec MessageProofs MessageProofs2 CtlModel CtlSpec CtlProofs HashProofs HashProps.

Lemma list_ext {A} (l1 : list A) : forall l2, (forall k, nth_error l1 k = nth_error l2 k) -> l1 = l2.
Proof.
  induction l1 as [|x l1 IH]; intros [|y l2] H; [reflexivity| | |].
  - specialize (H O). discriminate.
  - specialize (H O). discriminate.
  - f_equal; [specialize (H O); cbn in H; congruence|]. apply IH. intros k. exact (H (S k)).
Qed.

Lemma values_of_set mem k e v l : forall vs, values_of mem l = Some vs -> value_of mem e = Some v ->
  values_of mem (set_nth k (Some e) l) = Some (set_nth k v vs).
Proof.
  revert k. induction l as [|[x|] l IH]; intros [|k] vs H Hv; cbn [values_of set_nth] in *; try discriminate;
    try (injection H as <-; reflexivity).
  - destruct (value_of mem x); [|discriminate]. destruct (values_of mem l) as [vs'|]; [|discriminate]. injection H as <-.
    rewrite Hv. reflexivity.
  - destruct (value_of mem x) as [vx|]; [|discriminate]. destruct (values_of mem l) as [vs'|] eqn:E; [|discriminate]. injection H as <-.
    rewrite (IH k vs' eq_refl Hv). reflexivity.
Qed.

(** The message held by a pack object with stored values [t]. *)
Definition pack_rel (mem : bytes) (s : msg) (t : list value) : Prop :=
  values_of mem (m_el s) = Some t /\ m_n s = zlen t /\ 0 < zlen t < 65536 /\ m_nb s = u16 (8 + 16 * zlen t) /\
  Forall (fun v => match v with VSymbol _ => False | _ => True end) t.
Lemma pack_rel_values mem s t : pack_rel mem s t -> values mem s = Some t /\ zlen (m_el s) = zlen t.
Proof.
  intros (A & B & C & _). pose proof (values_of_length _ _ _ A) as L. unfold zlen in *. split; [|lia].
  unfold values, zlen. rewrite B, <- L. assert ((0 <? Z.of_nat (length t)) && (Z.of_nat (length t) <=? Z.of_nat (length t)) = true) as -> by lia.
  rewrite firstn_all2 by lia. exact A.
Qed.
Lemma set_forall {A} (P : A -> Prop) k x l : Forall P l -> P x -> Forall P (set_nth k x l).
Proof. intros H Hx. revert k. induction H; intros [|k]; cbn [set_nth]; constructor; auto. Qed.
Lemma pack_set mem s t i e v : pack_rel mem s t -> 0 <= i < zlen t -> value_of mem e = Some v ->
  match v with VSymbol _ => False | _ => True end ->
  exists s', set_elem s i e = Ok s' /\ pack_rel mem s' (set_nth (Z.to_nat i) v t) /\ m_ts s' = m_ts s.
Proof.
  intros HR Hi Hv Hsym. pose proof (pack_rel_values _ _ _ HR) as (_ & HL). destruct HR as (A & B & C & D & F).
  unfold set_elem. rewrite B, HL. assert (i <? zlen t = true) as E by lia. rewrite E. assert (0 <=? i = true) as -> by lia. cbn [andb].
  eexists. split; [reflexivity|]. split; [|reflexivity]. unfold pack_rel. cbn [m_el m_n m_nb]. unfold zlen. rewrite set_nth_length. fold (zlen t).
  split; [apply values_of_set; assumption|]. split; [reflexivity|]. split; [assumption|]. split; [assumption|]. apply set_forall; assumption.
Qed.

Lemma pack_list_nth t : forall vs j, nth_error (pack_list t vs) j =
  match nth_error t j with
  | Some o => Some (match nth_error vs j with Some v => pack_value o v | None => o end)
  | None => None
  end.
Proof.
  induction t as [|o t IH]; intros [|v vs] [|j]; cbn [pack_list nth_error]; try reflexivity; try apply IH.
  destruct (nth_error t j); reflexivity.
Qed.
Lemma pack_list_length t vs : length (pack_list t vs) = length t.
Proof. revert vs. induction t as [|o t IH]; intros [|v vs]; cbn [pack_list length]; try reflexivity. rewrite IH. reflexivity. Qed.

Lemma set_nth_error {A} k j (x : A) l : nth_error (set_nth k x l) j =
  if (j =? k)%nat then match nth_error l k with Some _ => Some x | None => None end else nth_error l j.
Proof.
  revert k j. induction l as [|y l IH]; intros [|k] [|j]; cbn [set_nth nth_error Nat.eqb]; try reflexivity.
  - destruct ((j =? k)%nat); reflexivity.
  - apply IH.
Qed.

Lemma firstn_nth {A} (l : list A) : forall k j, nth_error (firstn k l) j = if (j <? k)%nat then nth_error l j else None.
Proof.
  induction l as [|x l IH]; intros [|k] [|j]; cbn [firstn nth_error]; try reflexivity.
  - destruct (S j <? S k)%nat; reflexivity.
  - rewrite IH. reflexivity.
Qed.

Lemma pack_value_nosym o v : match o with VSymbol _ => False | _ => True end -> match pack_value o v with VSymbol _ => False | _ => True end.
Proof. destruct v; cbn [pack_value]; auto. Qed.

Lemma set_same {A} k (x : A) l : nth_error l k = Some x -> set_nth k x l = l.
Proof.
  intros H. apply list_ext. intros j. rewrite set_nth_error. destruct (Nat.eqb_spec j k) as [-> | N]; [|reflexivity]. rewrite H. reflexivity.
Qed.

Lemma pack_store_ok mem m vs : values mem m = Some vs -> forall k s t, pack_rel mem s t ->
  (k <= length t)%nat -> (k <= length vs)%nat ->
  exists s', pack_store mem s m k = Ok s' /\ pack_rel mem s' (pack_list t (firstn k vs)) /\ m_ts s' = m_ts s.
Proof.
  intros H. induction k as [|k IH]; intros s t HR Ht Hv; cbn [pack_store].
  - exists s. split; [reflexivity|]. split; [|reflexivity]. cbn [firstn]. destruct t; exact HR.
  - destruct (nth_error vs k) as [v|] eqn:Ev; [|apply nth_error_None in Ev; lia].
    destruct (nth_error t k) as [o|] eqn:Eo; [|apply nth_error_None in Eo; lia].
    destruct (values_elem mem m vs (Z.of_nat k) v H ltac:(lia)) as (Hlt & e & A & B); [rewrite Nat2Z.id; exact Ev|].
    rewrite A. cbn [obind].
    pose proof (getHash_key mem m vs (Z.of_nat k) v H ltac:(lia)) as Hh. rewrite Nat2Z.id in Hh. specialize (Hh Ev).
    assert (exists s1, match e with
               | Flt b => msg_setFloat s (Z.of_nat k) b
               | Sym _ | Hsh _ => let! h := msg_getHash mem m (Z.of_nat k) in msg_setHash s (Z.of_nat k) h
               | Bang => Ok s
               end = Ok s1 /\ pack_rel mem s1 (set_nth k (pack_value o v) t) /\ m_ts s1 = m_ts s) as (s1 & S1 & S2 & S3).
    { assert (0 <= Z.of_nat k < zlen t) as Hk by (unfold zlen; lia).
      apply value_kind in B. destruct e as [|b|p|h], v as [|b'|str|h']; try contradiction; subst; rewrite ?Hh; cbn [obind pack_value key].
      - exists s. rewrite set_same by exact Eo. auto.
      - pose proof (pack_set mem s t (Z.of_nat k) (Flt b) (VFloat b) HR Hk eq_refl I) as P. rewrite Nat2Z.id in P. exact P.
      - pose proof (pack_set mem s t (Z.of_nat k) (Hsh (hv_string_to_hash str)) (VHash _) HR Hk eq_refl I) as P. rewrite Nat2Z.id in P. exact P.
      - pose proof (pack_set mem s t (Z.of_nat k) (Hsh h) (VHash h) HR Hk eq_refl I) as P. rewrite Nat2Z.id in P. exact P. }
    rewrite S1. cbn [obind]. destruct (IH s1 _ S2) as (s2 & T1 & T2 & T3); [rewrite set_nth_length; lia|lia|].
    exists s2. split; [exact T1|]. split; [|congruence].
    replace (pack_list t (firstn (S k) vs)) with (pack_list (set_nth k (pack_value o v) t) (firstn k vs)); [exact T2|].
    apply list_ext. intros j. rewrite !pack_list_nth, set_nth_error, !firstn_nth.
    destruct (Nat.eqb_spec j k) as [-> | N].
    + rewrite Eo. destruct (Nat.ltb_spec k k); [lia|]. destruct (Nat.ltb_spec k (S k)); [|lia]. rewrite Ev. reflexivity.
    + destruct (nth_error t j); [|reflexivity]. destruct (Nat.ltb_spec j k), (Nat.ltb_spec j (S k)); try lia; reflexivity.
Qed.

Lemma pack_step mem s t i m vs t' ve : pack_rel mem s t -> values mem m = Some vs -> m_n m < 65536 ->
  pack_spec t i vs = Some (t', ve) ->
  exists s' e, cPack_onMessage mem s i m = Ok (s', e) /\ pack_rel mem s' t' /\ emits_are mem (m_ts m) e ve.
Proof.
  intros HR H Hn Hs. unfold pack_spec in Hs. unfold cPack_onMessage. destruct (i =? 0) eqn:E0.
  - cbv zeta in Hs. injection Hs as <- <-. pose proof (values_len _ _ _ H) as (Hl & _).
    destruct HR as (A & B & C). set (k := Z.to_nat (Z.min (m_n s) (m_n m))).
    destruct (pack_store_ok mem m vs H k s t) as (s1 & S1 & S2 & S3); [split; [exact A|split; [exact B|exact C]]| | |].
    { unfold k, zlen in *. lia. } { unfold k, zlen in *. lia. }
    rewrite S1. cbn [obind].
    assert (pack_list t (firstn k vs) = pack_list t vs) as Ep.
    { apply list_ext. intros j. rewrite !pack_list_nth, firstn_nth. destruct (nth_error t j) as [o|] eqn:Ej; [|reflexivity].
      destruct (Nat.ltb_spec j k); [reflexivity|]. assert (j < length t)%nat by (apply nth_error_Some; congruence).
      destruct (nth_error vs j) eqn:Ejv; [|reflexivity]. assert (j < length vs)%nat by (apply nth_error_Some; congruence).
      unfold k, zlen in *. lia. }
    rewrite Ep in S2. eexists _, _. split; [reflexivity|].
    assert (HR2 : pack_rel mem (mkMsg (m_ts m) (m_n s1) (m_nb s1) (m_el s1)) (pack_list t vs)) by exact S2.
    split; [exact HR2|]. constructor; [|constructor]. cbn [fst snd m_ts]. split; [reflexivity|]. split; [|reflexivity].
    apply pack_rel_values. exact HR2.
  - destruct ((0 <? i) && (i <? zlen t)) eqn:Ei; [|discriminate].
    destruct vs as [|v vs]; [discriminate|].
    destruct (values_elem mem m (v :: vs) 0 v H ltac:(lia) eq_refl) as (_ & e & A & B). rewrite A. cbn [obind].
    assert (Hi : 0 <= i < zlen t) by lia.
    assert (Hnil : emits_are mem (m_ts m) [] []) by constructor.
    apply value_kind in B. destruct e as [|b|p|h], v as [|b'|str|h']; try contradiction; try discriminate; subst; injection Hs as <- <-; cbn [pack_value].
    + exists s, []. split; [reflexivity|]. rewrite set_same; [auto|]. apply nth_error_nth'. unfold zlen in Hi. lia.
    + destruct (pack_set mem s t i (Flt b) (VFloat b) HR Hi eq_refl I) as (s1 & S1 & S2 & S3).
      unfold msg_setFloat. rewrite S1. cbn [obind]. eauto.
    + destruct (pack_set mem s t i (Hsh h) (VHash h) HR Hi eq_refl I) as (s1 & S1 & S2 & S3).
      assert (msg_getHash mem m 0 = Ok h) as Hh by (rewrite (getHash_key mem m _ 0 _ H ltac:(lia) eq_refl); reflexivity).
      unfold msg_setHash. rewrite S1. cbn [obind]. eauto.
Qed.

Lemma pack_init_ok mem vals : 0 < zlen vals < 65536 ->
  exists s, cPack_init vals = Ok s /\ pack_rel mem s (map VFloat vals).
Proof.
  intros Hl. unfold cPack_init, msg_init, msg_getCoreSize. assert (0 <? zlen vals = true) as -> by lia. cbn [obind].
  rewrite (u16_id (zlen vals)) by lia.
  assert (P : forall post pre (m : msg), m_el m = map (fun b => Some (Flt b)) pre ++ repeat None (length post) ->
     m_n m = zlen pre + zlen post -> m_nb m = u16 (core (m_n m)) ->
     exists m', fold_left (fun acc '(i, b) => let! m := acc in msg_setFloat m i b)
       (combine (map Z.of_nat (seq (length pre) (length post))) post) (Ok m) = Ok m' /\
       m_el m' = map (fun b => Some (Flt b)) (pre ++ post) /\ m_n m' = m_n m /\ m_nb m' = m_nb m).
  { induction post as [|b post IH]; intros pre m H1 H2 H3.
    - exists m. cbn. rewrite H1. cbn [length repeat]. rewrite !app_nil_r. auto.
    - cbn [length seq map combine fold_left obind]. unfold msg_setFloat, set_elem.
      rewrite H2, zlen_cons. assert (Hz : zlen (m_el m) = zlen pre + 1 + zlen post).
      { rewrite H1, zlen_app. unfold zlen. rewrite map_length, repeat_length. cbn [length]. lia. }
      rewrite Hz. assert (Z.of_nat (length pre) <? zlen pre + (1 + zlen post) = true) as -> by (unfold zlen; lia).
      assert ((0 <=? Z.of_nat (length pre)) && (Z.of_nat (length pre) <? zlen pre + 1 + zlen post) = true) as -> by (unfold zlen; lia).
      set (m1 := mkMsg _ _ _ _).
      destruct (IH (pre ++ [b]) m1) as (m' & A & B & C & D).
      + unfold m1. cbn [m_el]. rewrite H1, Nat2Z.id. clear. revert post. induction pre as [|x pre IH]; intros post; cbn; [reflexivity|].
        f_equal. apply IH.
      + unfold m1. cbn [m_n]. rewrite zlen_app. unfold zlen. cbn [length]. lia.
      + unfold m1. cbn [m_nb m_n]. rewrite H3, H2, zlen_cons. reflexivity.
      + exists m'. rewrite app_length in A. cbn [length] in A. rewrite Nat.add_1_r in A. rewrite <- app_assoc in B. cbn [app] in B.
        split; [exact A|]. split; [exact B|]. split; [rewrite C; reflexivity|rewrite D; reflexivity]. }
  destruct (P vals [] (mkMsg 0 (zlen vals) (u16 (core (zlen vals))) (repeat None (length vals)))) as (m' & A & B & C & D);
    [reflexivity|reflexivity|reflexivity|].
  cbn [length app m_n m_nb] in *. exists m'. split; [exact A|]. unfold pack_rel. rewrite B, C, D. unfold zlen in *. rewrite map_length.
  split; [|split; [reflexivity|]]. 2: split; [lia|]. 2: split; [f_equal; unfold core; lia|].
  - clear. induction vals as [|b l IH]; [reflexivity|]. cbn [map values_of value_of]. rewrite IH. reflexivity.
  - apply Forall_forall. intros v Hv. apply in_map_iff in Hv as (x & <- & _). exact I.
Qed.

(** ** var *)
Definition var_rel (mem : bytes) (s : elem) (t : value) : Prop :=
  match s, t with Flt b, VFloat b' => b = b' | Hsh h, VHash h' => h = h' | _, _ => False end.
Lemma var_step mem s t i m vs t' ve : var_rel mem s t -> values mem m = Some vs -> m_n m < 65536 ->
  var_spec t i vs = Some (t', ve) ->
  exists s' e, cVar_onMessage mem s i m = Ok (s', e) /\ var_rel mem s' t' /\ emits_are mem (m_ts m) e ve.
Proof.
  intros HR H Hn Hs. unfold cVar_onMessage.
  assert (Hnil : emits_are mem (m_ts m) [] []) by constructor.
  pose proof (values_len _ _ _ H) as (Hl & Hm).
  destruct vs as [|v vs]; [unfold zlen in Hl; cbn in Hl; lia|].
  destruct (values_elem mem m (v :: vs) 0 v H ltac:(lia) eq_refl) as (_ & e & A & B).
  assert (Hh : msg_getHash mem m 0 = Ok (key v)) by (exact (getHash_key mem m _ 0 _ H ltac:(lia) eq_refl)).
  assert (Hout : emits_are mem (m_ts m) [(0, m)] [(0, v :: vs)]).
  { constructor; [|constructor]. cbn. auto. }
  apply value_kind in B.
  destruct (Z.eqb_spec i 0) as [-> | N0].
  { rewrite A. cbn [obind]. unfold var_spec in Hs.
    destruct e as [|b|p|h], v as [|b'|str|h']; try contradiction; subst; rewrite ?Hh; cbn [obind]; injection Hs as <- <-; cbn [pack_value].
    - destruct s as [|b|p|h], t as [|b'|str|h']; try contradiction; cbn in HR; subst; cbn;
        (eexists _, _; split; [reflexivity|]; split; [reflexivity|]; constructor; [|constructor]; split; [reflexivity|]; split; [apply values_single|]; reflexivity).
    - eexists _, _; split; [reflexivity|]; split; [reflexivity|exact Hout].
    - eexists _, _; split; [reflexivity|]; split; [reflexivity|exact Hout].
    - eexists _, _; split; [reflexivity|]; split; [reflexivity|exact Hout]. }
  destruct (Z.eqb_spec i 1) as [-> | N1].
  { rewrite A. cbn [obind]. unfold var_spec in Hs.
    destruct e as [|b|p|h], v as [|b'|str|h']; try contradiction; subst; rewrite ?Hh; cbn [obind]; injection Hs as <- <-; cbn [pack_value];
      eexists _, _; split; [reflexivity| |reflexivity| |reflexivity| |reflexivity|]; split; try exact Hnil; try reflexivity; exact HR. }
  assert (Hother : Some (t, []) = Some (t', ve)).
  { rewrite <- Hs. destruct i as [|[p|[p|p|]|]|p]; try lia; try reflexivity; destruct v; reflexivity. }
  injection Hother as <- <-. eexists _, _; split; [reflexivity|]. split; [exact HR|exact Hnil].
Qed.

(** ** if *)
Lemma if_step mem s t i m vs t' ve : s = t -> values mem m = Some vs -> m_n m < 65536 ->
  if_spec t i vs = Some (t', ve) ->
  exists s' e, cIf_onMessage s i m = Ok (s', e) /\ s' = t' /\ emits_are mem (m_ts m) e ve.
Proof.
  intros -> H Hn Hs. unfold cIf_onMessage.
  assert (Hnil : emits_are mem (m_ts m) [] []) by constructor.
  destruct (Z.eqb_spec i 0) as [-> | N0].
  { cbn in Hs. injection Hs as <- <-. eexists _, _; split; [reflexivity|]. split; [reflexivity|]. constructor; [|constructor]. cbn. auto. }
  destruct (Z.eqb_spec i 1) as [-> | N1].
  { pose proof (values_len _ _ _ H) as (Hl & Hm). destruct vs as [|v vs]; [unfold zlen in Hl; cbn in Hl; lia|].
    destruct (values_elem mem m (v :: vs) 0 v H ltac:(lia) eq_refl) as (_ & e & A & B). unfold test_elem.
    assert (0 <? m_n m = true) as -> by lia. rewrite A. cbn [obind]. apply value_kind in B. cbn in Hs.
    destruct e as [|b|p|h], v as [|b'|str|h']; try contradiction; subst; cbn [is_f obind]; injection Hs as <- <-;
      eexists _, _; (split; [reflexivity|]; split; [reflexivity|exact Hnil]). }
  assert (Hother : Some (t, []) = Some (t', ve)).
  { rewrite <- Hs. destruct i as [|[p|[p|p|]|]|p]; try lia; try reflexivity; destruct vs as [|[] ?]; reflexivity. }
  injection Hother as <- <-. eexists _, _; split; [reflexivity|]. split; [reflexivity|exact Hnil].
Qed.

(** ** casts *)
Lemma sym_single mem ts p s : cstr mem p = Ok s -> exists n, msg_initWithSymbol mem ts p = Ok n /\ values mem n = Some [VSymbol s] /\ m_ts n = ts /\
  m_nb n = u16 (u16 (24 + u16 (zlen s)) + u16 (zlen s + 1)).
Proof.
  intros H. assert (Hp : 0 < p) by (apply cstr_spec in H; tauto).
  unfold msg_initWithSymbol. rewrite H. cbn [obind]. unfold msg_setSymbol, init1. cbn [m_n]. change (0 <? 1) with true. cbv iota.
  destruct (p =? 0) eqn:E; [lia|]. cbn [negb]. unfold set_elem. cbn [m_n m_el m_nb m_ts]. change (0 <? 1) with true. cbv iota.
  change ((0 <=? 0) && (0 <? zlen [@None elem])) with true. cbv iota. change (Z.to_nat 0) with 0%nat. cbn [set_nth]. cbn [obind]. rewrite H. cbn [obind].
  eexists. split; [reflexivity|]. split; [|split; reflexivity]. apply values_single. cbn [value_of]. rewrite H. reflexivity.
Qed.
Lemma cast_ok mem bang_p float_p c m vs : values mem m = Some vs ->
  cstr mem bang_p = Ok [98; 97; 110; 103] -> cstr mem float_p = Ok [102; 108; 111; 97; 116] ->
  exists e, cCast_onMessage mem bang_p float_p c m = Ok e /\ emits_are mem (m_ts m) e (cast_spec c vs).
Proof.
  intros H Hb Hf. assert (Hnil : emits_are mem (m_ts m) [] []) by constructor.
  pose proof (values_len _ _ _ H) as (Hl & Hm). destruct vs as [|v vs]; [unfold zlen in Hl; cbn in Hl; lia|].
  destruct (values_elem mem m (v :: vs) 0 v H ltac:(lia) eq_refl) as (_ & e & A & B). apply value_kind in B.
  destruct c; cbn [cCast_onMessage cast_spec].
  - eexists. split; [reflexivity|]. constructor; [|constructor]. split; [reflexivity|]. split; [apply values_single|]; reflexivity.
  - unfold test_elem. assert (0 <? m_n m = true) as -> by lia. rewrite A. cbn [obind].
    destruct e as [|b|p|h], v as [|b'|str|h']; try contradiction; subst; cbn [is_f obind]; try (eexists; split; [reflexivity|exact Hnil]).
    cbn. eexists. split; [reflexivity|]. constructor; [|constructor]. split; [reflexivity|]. split; [apply values_single|]; reflexivity.
  - rewrite A. cbn [obind]. destruct e as [|b|p|h], v as [|b'|str|h']; try contradiction; subst.
    + destruct (sym_single mem (m_ts m) bang_p _ Hb) as (n & -> & N1 & N2 & _). cbn [obind]. eexists. split; [reflexivity|].
      constructor; [|constructor]. cbn. auto.
    + destruct (sym_single mem (m_ts m) float_p _ Hf) as (n & -> & N1 & N2 & _). cbn [obind]. eexists. split; [reflexivity|].
      constructor; [|constructor]. cbn. auto.
    + eexists. split; [reflexivity|]. constructor; [|constructor]. cbn. auto.
    + eexists; split; [reflexivity|exact Hnil].
Qed.
