From Verif Require Import HashModel.
Require Import ZifyBool.

Lemma mask32_u32 z : mask32 z = u32 z.
Proof. unfold mask32, u32. change 4294967295 with (Z.ones 32). rewrite Z.land_ones by lia. reflexivity. Qed.

Lemma skipn_skipn {A} a : forall b (l : list A), skipn a (skipn b l) = skipn (a + b) l.
Proof.
  intros b; induction b as [|b IH]; intros l; [rewrite Nat.add_0_r; reflexivity|].
  destruct l as [|x l]; [rewrite !skipn_nil; reflexivity|]. rewrite Nat.add_succ_r. cbn [skipn]. apply IH.
Qed.

Definition ascii (c : Z) : Prop := 0 < c < 128.

Lemma utf8s_ascii x : Forall ascii x -> utf8s x = Some x.
Proof.
  induction 1 as [|c x Hc _ IH]; cbn [utf8s]; [reflexivity|]. unfold utf8.
  destruct (Z.ltb_spec c 128); [|unfold ascii in Hc; lia]. rewrite IH. reflexivity.
Qed.

Lemma land_not3 z : 0 <= z -> Z.land z (Z.lnot 3) = 4 * (z / 4).
Proof.
  intros. change 3 with (Z.ones 2). rewrite <- Z.ldiff_land, Z.ldiff_ones_r by lia.
  rewrite Z.shiftl_mul_pow2, Z.shiftr_div_pow2 by lia. change (2 ^ 2) with 4. lia.
Qed.
Lemma land3 z : Z.land z 3 = z mod 4.
Proof. change 3 with (Z.ones 2). rewrite Z.land_ones by lia. reflexivity. Qed.

Lemma Forall_skipn {A} (P : A -> Prop) n l : Forall P l -> Forall P (skipn n l).
Proof. revert l; induction n; intros l H; [exact H|]. destruct l; [constructor|]. inversion H; subst. cbn. auto. Qed.
Lemma Forall_firstn {A} (P : A -> Prop) n l : Forall P l -> Forall P (firstn n l).
Proof. revert l; induction n; intros l H; [constructor|]. destruct l; [constructor|]. inversion H; subst. cbn. constructor; auto. Qed.

(** The two loops run in lock step on the suffix. *)
Lemma loops_agree x : Forall ascii x -> forall fuel i h, (length x <= fuel + i)%nat -> (i <= length x)%nat ->
  (exists q, i = 4 * q)%nat ->
  exists j, (i <= j <= length x)%nat /\ (length x - j < 4)%nat /\ (exists q, j = 4 * q)%nat /\
    py_loop fuel x i h = Some (j, snd (c_loop (skipn i x) h)) /\
    fst (c_loop (skipn i x) h) = skipn j x.
Proof.
  intros HA. induction fuel as [|fuel IH]; intros i h Hf Hi (q & Hq).
  - assert (Hil : i = length x) by lia. exists i. split; [lia|]. split; [lia|]. split; [exists q; exact Hq|]. rewrite Hil.
    cbn [py_loop]. rewrite land_not3 by apply zlen_nonneg.
    assert (Z.of_nat (length x) <? 4 * (zlen x / 4) = false) as ->.
    { apply Z.ltb_ge. unfold zlen. pose proof (Z.mul_div_le (Z.of_nat (length x)) 4). lia. }
    rewrite skipn_all. auto.
  - cbn [py_loop]. rewrite land_not3 by apply zlen_nonneg. unfold zlen.
    destruct (Z.ltb_spec (Z.of_nat i) (4 * (Z.of_nat (length x) / 4))) as [Hlt|Hge].
    + assert (Hl4 : (i + 4 <= length x)%nat).
      { pose proof (Z.mul_div_le (Z.of_nat (length x)) 4). lia. }
      unfold slice. replace (i + 4 - i)%nat with 4%nat by lia.
      pose proof (skipn_length i x) as Hsl.
      destruct (skipn i x) as [|a [|b [|c [|d rest]]]] eqn:E; cbn [length] in Hsl; try lia.
      assert (Hr : rest = skipn (i + 4) x).
      { replace (i + 4)%nat with (4 + i)%nat by lia. rewrite <- skipn_skipn, E. reflexivity. }
      assert (HF : Forall ascii (firstn 4 (a :: b :: c :: d :: rest))).
      { apply Forall_firstn. rewrite <- E. apply Forall_skipn, HA. }
      rewrite (utf8s_ascii _ HF). cbn [firstn unpack_I].
      rewrite !mask32_u32.
      destruct (IH (i + 4)%nat (Z.lxor (u32 (h * MUR))
          (u32 (Z.lxor (u32 (load_le32 a b c d * MUR)) (Z.shiftr (u32 (load_le32 a b c d * MUR)) 24) * MUR))))
        as (j & J1 & J2 & J3 & J4 & J5); [lia|lia|exists (S q); lia|].
      exists j. split; [lia|]. split; [exact J2|]. split; [exact J3|].
      rewrite J4. cbn [c_loop]. rewrite Hr. split; [reflexivity|]. exact J5.
    + assert (Hs : (length x - i < 4)%nat).
      { pose proof (Z.mod_pos_bound (Z.of_nat (length x)) 4). pose proof (Z.div_mod (Z.of_nat (length x)) 4). lia. }
      exists i. split; [lia|]. split; [exact Hs|]. split; [exists q; exact Hq|].
      pose proof (skipn_length i x) as Hsl.
      destruct (skipn i x) as [|a [|b [|c [|d rest]]]]; cbn [length] in Hsl; try lia; cbn [c_loop fst snd]; auto.
Qed.

Lemma u32_small z : 0 <= z < 4294967296 -> u32 z = z.
Proof. apply u32_id. Qed.

Lemma hash_agree x : Forall ascii x -> is_bang x = false -> zlen x < 4294967296 ->
  py_get_hash x = Some (hv_string_to_hash x).
Proof.
  intros HA HB HL. unfold py_get_hash, hv_string_to_hash. rewrite HB.
  rewrite (u32_small (zlen x)) by (pose proof (zlen_nonneg x); lia).
  destruct (loops_agree x HA (length x) 0 (zlen x)) as (j & J1 & J2 & (q & J3) & J4 & J5); [lia|lia|exists 0%nat; reflexivity|].
  rewrite J4. cbn [skipn] in *. destruct (c_loop x (zlen x)) as [str h]. cbn [fst snd] in *.
  rewrite land3. pose proof (skipn_length j x) as Hsl.
  assert (Hn : zlen x mod 4 = Z.of_nat (length str)).
  { rewrite J5, Hsl. unfold zlen.
    replace (Z.of_nat (length x)) with (Z.of_nat (length x - j) + Z.of_nat q * 4) by lia.
    rewrite Z.mod_add by lia. rewrite Z.mod_small by lia. reflexivity. }
  rewrite Hn, Nat2Z.id.
  assert (Hstr : slice x j (j + length str) = str).
  { unfold slice. replace (j + length str - j)%nat with (length str) by lia. rewrite <- J5. apply firstn_all. }
  rewrite Hstr. assert (HAs : Forall ascii str) by (rewrite J5; apply Forall_skipn, HA).
  rewrite <- J5 in Hsl. rewrite !mask32_u32.
  assert (Hcc : forall a k, ascii a -> 0 <= k <= 16 -> u32 (Z.shiftl (c_char a) k) = u32 (Z.shiftl a k)).
  { intros a k Ha Hk. unfold c_char, ascii in *. destruct (Z.ltb_spec a 128); [reflexivity|lia]. }
  assert (Hc0 : forall a, ascii a -> u32 (c_char a) = a).
  { intros a Ha. unfold c_char, ascii in *. destruct (Z.ltb_spec a 128); [|lia]. apply u32_id; lia. }
  destruct str as [|a [|b [|c [|d rest]]]]; cbn [length] in *; try lia; cbn [Z.of_nat Pos.of_succ_nat Pos.succ Z.leb Z.compare Pos.compare Pos.compare_cont nth].
  - reflexivity.
  - inversion HAs as [|? ? Ha _]; subst. rewrite (Hc0 a Ha). reflexivity.
  - inversion HAs as [|? ? Ha HAs']; subst. inversion HAs' as [|? ? Hb _]; subst.
    rewrite (Hc0 a Ha), Hcc by (assumption || lia). reflexivity.
  - inversion HAs as [|? ? Ha HAs']; subst. inversion HAs' as [|? ? Hb HAs'']; subst. inversion HAs'' as [|? ? Hc _]; subst.
    rewrite (Hc0 a Ha), !Hcc by (assumption || lia). reflexivity.
Qed.

Lemma lxor_range a b : 0 <= a < 4294967296 -> 0 <= b < 4294967296 -> 0 <= Z.lxor a b < 4294967296.
Proof.
  intros Ha Hb. split; [apply Z.lxor_nonneg; lia|].
  destruct (Z.eq_dec (Z.lxor a b) 0) as [->|Hne]; [lia|].
  assert (0 <= Z.lxor a b) by (apply Z.lxor_nonneg; lia).
  change 4294967296 with (2 ^ 32). apply Z.log2_lt_pow2; [lia|].
  eapply Z.le_lt_trans; [apply Z.log2_lxor; lia|].
  apply Z.max_lub_lt.
  - destruct (Z.eq_dec a 0) as [->|]; [reflexivity|]. apply Z.log2_lt_pow2; [lia|]. exact (proj2 Ha).
  - destruct (Z.eq_dec b 0) as [->|]; [reflexivity|]. apply Z.log2_lt_pow2; [lia|]. exact (proj2 Hb).
Qed.
Lemma shiftr_range a k : 0 <= k -> 0 <= a < 4294967296 -> 0 <= Z.shiftr a k < 4294967296.
Proof.
  intros Hk Ha. rewrite Z.shiftr_div_pow2 by exact Hk. pose proof (Z.pow_pos_nonneg 2 k).
  split; [apply Z.div_pos; lia|]. apply Z.div_lt_upper_bound; nia.
Qed.
Lemma hash_range x : 0 <= hv_string_to_hash x < 4294967296.
Proof.
  unfold hv_string_to_hash. destruct (c_loop x (u32 (zlen x))) as [str h].
  apply lxor_range; [|apply shiftr_range; [lia|]]; apply u32_range.
Qed.
