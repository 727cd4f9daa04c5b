(** Proofs about the message pool model. *)
From Verif Require Import PoolModel.
From Coq Require Import Permutation.
Require Import ZifyBool ZifyNat.

Definition csz (i : Z) : Z := Z.shiftl 32 i.

Lemma csz_pow i : 0 <= i -> csz i = 2 ^ (5 + i).
Proof. intros; unfold csz; rewrite Z.shiftl_mul_pow2 by lia. rewrite Z.pow_add_r by lia. reflexivity. Qed.
Lemma csz_pos i : 0 <= i -> 0 < csz i.
Proof. intros; rewrite csz_pow by lia; apply Z.pow_pos_nonneg; lia. Qed.
Lemma csz_mono i j : 0 <= i <= j -> csz i <= csz j.
Proof. intros; rewrite !csz_pow by lia; apply Z.pow_le_mono_r; lia. Qed.

(** Size classes: the class of [b] holds [b] bytes and is the smallest one that does. *)
Lemma class_spec b : 2 <= b <= 65535 ->
  exists i, mp_messagelistIndexForSize b = Ok i /\ 0 <= i /\ b <= csz i /\
            forall c, 0 <= c -> b <= csz c -> i <= c.
Proof.
  intros Hb. unfold mp_messagelistIndexForSize, hv_min_max_log2.
  rewrite u32_id by lia. destruct (Z.eqb_spec (b - 1) 0); [lia|]. cbn [obind].
  set (l := Z.log2 (b - 1)).
  assert (Hl : 2 ^ l <= b - 1 < 2 ^ (l + 1)).
  { replace (l + 1) with (Z.succ l) by lia. apply Z.log2_spec; lia. }
  assert (Hl0 : 0 <= l) by apply Z.log2_nonneg.
  eexists; split; [reflexivity|]. split; [lia|]. split.
  - destruct (Z.max_spec (l + 1 - 5) 0) as [[Hc ->]|[Hc ->]].
    + change (csz 0) with (2 ^ 5). assert (2 ^ (l + 1) <= 2 ^ 5) by (apply Z.pow_le_mono_r; lia). lia.
    + rewrite csz_pow by lia. replace (5 + (l + 1 - 5)) with (l + 1) by lia. lia.
  - intros c Hc Hbc. rewrite csz_pow in Hbc by lia.
    assert (2 ^ l < 2 ^ (5 + c)) by lia. apply Z.pow_lt_mono_r_iff in H; lia.
Qed.

(** ** Ranges *)
Definition disj (x y : Z * Z) : Prop := fst x + snd x <= fst y \/ fst y + snd y <= fst x.
Fixpoint pd (l : list (Z * Z)) : Prop :=
  match l with [] => True | x :: l' => Forall (disj x) l' /\ pd l' end.

Lemma disj_sym x y : disj x y -> disj y x. Proof. unfold disj; lia. Qed.

Lemma pd_perm l l' : Permutation l l' -> pd l -> pd l'.
Proof.
  induction 1 as [|x l l' HP IH|x y l|l1 l2 l3 H1 IH1 H2 IH2]; cbn [pd].
  - auto.
  - intros (Hf & Hp). split; [|auto]. eapply Permutation_Forall; eassumption.
  - intros (Hf & Hf' & Hp). inversion Hf; subst.
    split; [constructor; [apply disj_sym; assumption|assumption]|split; assumption].
  - auto.
Qed.

Lemma pd_app l l' : pd l -> pd l' -> (forall x y, In x l -> In y l' -> disj x y) -> pd (l ++ l').
Proof.
  induction l as [|x l IH]; cbn [pd app]; intros H H' Hd; [assumption|].
  destruct H as (Hf & Hp). split.
  - apply Forall_app; split; [assumption|]. apply Forall_forall. intros y Hy. apply Hd; [left; reflexivity|assumption].
  - apply IH; auto. intros; apply Hd; [right|]; assumption.
Qed.

Definition franges (ls : Z -> list Z) : list (Z * Z) :=
  flat_map (fun i => map (fun a => (a, csz i)) (ls i)) [0; 1; 2; 3].

Lemma set_list_same ls i l : set_list ls i l i = l.
Proof. unfold set_list; rewrite Z.eqb_refl; reflexivity. Qed.
Lemma set_list_other ls i l j : j <> i -> set_list ls i l j = ls j.
Proof. unfold set_list; intros; destruct (Z.eqb_spec j i); congruence. Qed.

Lemma four_cases i : 0 <= i < 4 -> i = 0 \/ i = 1 \/ i = 2 \/ i = 3. Proof. lia. Qed.

Lemma franges_push ls i a : 0 <= i < 4 ->
  Permutation ((a, csz i) :: franges ls) (franges (set_list ls i (a :: ls i))).
Proof.
  intros Hi. unfold franges. cbn [flat_map].
  destruct (four_cases i Hi) as [-> | [-> | [-> | ->]]]; unfold set_list; cbn [Z.eqb Pos.eqb map];
    rewrite !app_nil_r; cbn [app].
  - reflexivity.
  - apply Permutation_middle.
  - rewrite !(app_assoc (map _ (ls 0)) (map _ (ls 1))). apply Permutation_middle.
  - rewrite !(app_assoc (map _ (ls 0)) (map _ (ls 1))), !(app_assoc _ (map _ (ls 2))). apply Permutation_middle.
Qed.

Lemma franges_ext ls ls' : (forall i, ls i = ls' i) -> franges ls = franges ls'.
Proof. intros H; unfold franges; cbn [flat_map]; rewrite !H; reflexivity. Qed.

Lemma franges_pop ls i a l : 0 <= i < 4 -> ls i = a :: l ->
  Permutation (franges ls) ((a, csz i) :: franges (set_list ls i l)).
Proof.
  intros Hi E. apply Permutation_sym.
  rewrite (franges_ext ls (set_list (set_list ls i l) i (a :: set_list ls i l i))).
  - apply franges_push; assumption.
  - intros j. destruct (Z.eq_dec j i) as [->|Hne].
    + rewrite !set_list_same. exact E.
    + rewrite !set_list_other by assumption. reflexivity.
Qed.

(** ** push_chunks *)
Fixpoint chunks (j c : Z) (k : nat) : list Z :=
  match k with O => [] | S k' => j :: chunks (j + c) c k' end.

Lemma push_chunks_spec k : forall p i j c, 0 <= i < 4 ->
  bsize (push_chunks p i j c k) = bsize p /\ bidx (push_chunks p i j c k) = bidx p /\
  bytes (push_chunks p i j c k) = bytes p /\
  Permutation (map (fun a => (a, csz i)) (chunks j c k) ++ franges (lists p))
              (franges (lists (push_chunks p i j c k))) /\
  (forall q, q <> i -> lists (push_chunks p i j c k) q = lists p q) /\
  length (lists (push_chunks p i j c k) i) = (k + length (lists p i))%nat.
Proof.
  induction k as [|k IH]; intros p i j c Hi; cbn [push_chunks chunks map app].
  - repeat split; reflexivity.
  - destruct (IH (ml_push p i j) i (j + c) c Hi) as (H1 & H2 & H3 & H4 & H5 & H6).
    rewrite H1, H2, H3. repeat (split; [reflexivity|]). split; [|split].
    + rewrite <- H4. cbn [ml_push lists].
      rewrite <- (franges_push (lists p) i j Hi). apply Permutation_middle.
    + intros q Hq. rewrite H5 by assumption. cbn [ml_push lists]. apply set_list_other; assumption.
    + rewrite H6. cbn [ml_push lists]. rewrite set_list_same. cbn [length]. lia.
Qed.

Lemma chunks_in k : forall j c x, 0 < c -> In x (chunks j c k) -> j <= x /\ x + c <= j + c * Z.of_nat k.
Proof.
  induction k as [|k IH]; intros j c x Hc Hx; cbn [chunks] in Hx; [destruct Hx|].
  destruct Hx as [->|Hx]; [nia|]. apply IH in Hx; [nia|assumption].
Qed.

Lemma chunks_pd k : forall j c, 0 < c -> pd (map (fun a => (a, c)) (chunks j c k)).
Proof.
  induction k as [|k IH]; intros j c Hc; cbn [chunks map pd]; [exact I|].
  split; [|apply IH; assumption].
  apply Forall_forall. intros [a s] Hin. apply in_map_iff in Hin. destruct Hin as (x & E & Hx).
  inversion E; subst. apply chunks_in in Hx; [|assumption]. unfold disj; cbn. lia.
Qed.

(** ** Invariant *)
Definition good_img (img : list Z) : Prop :=
  24 <= zlen img <= 65535 /\ nth 6 img 0 + 256 * nth 7 img 0 = zlen img.

Notation gmsg := (Z * list Z * Z)%type.     (* address, image, class of its chunk *)
Definition grange (g : gmsg) : Z * Z := (fst (fst g), csz (snd g)).
Definition holds (m : pmem) (a : Z) (img : list Z) : Prop :=
  forall k, (k < length img)%nat -> m (a + Z.of_nat k) = nth k img 0.
Definition gok (m : pmem) (g : gmsg) : Prop :=
  0 <= snd g < 4 /\ zlen (snd (fst g)) <= csz (snd g) /\ good_img (snd (fst g)) /\
  holds m (fst (fst g)) (snd (fst g)).

Definition inside (p : pool) (r : Z * Z) : Prop := 0 <= fst r /\ fst r + snd r <= bidx p.

Definition PInv (p : pool) (gl : list gmsg) : Prop :=
  0 <= bidx p <= bsize p /\
  pd (map grange gl ++ franges (lists p)) /\
  Forall (inside p) (map grange gl ++ franges (lists p)) /\
  Forall (gok (bytes p)) gl.

Lemma holds_frame m a img x l :
  holds m x img -> (x + zlen img <= a \/ a + zlen l <= x) -> holds (write_bytes m a l) x img.
Proof.
  intros H Hd k Hk. unfold write_bytes. unfold zlen in *.
  destruct (Z.leb_spec a (x + Z.of_nat k)); destruct (Z.ltb_spec (x + Z.of_nat k) (a + Z.of_nat (length l)));
    cbn [andb]; try (apply H; assumption). lia.
Qed.

Lemma holds_write m a img : holds (write_bytes m a img) a img.
Proof.
  intros k Hk. unfold write_bytes, zlen.
  destruct (Z.leb_spec a (a + Z.of_nat k)); [|lia].
  destruct (Z.ltb_spec (a + Z.of_nat k) (a + Z.of_nat (length img))); [|lia].
  cbn [andb]. replace (Z.to_nat (a + Z.of_nat k - a)) with k by lia. reflexivity.
Qed.

Lemma gl_frame m a l s gl :
  zlen l <= s -> Forall (fun g => disj (a, s) (grange g)) gl ->
  Forall (gok m) gl -> Forall (gok (write_bytes m a l)) gl.
Proof.
  intros Hl Hd H. apply Forall_forall. intros g Hg.
  rewrite Forall_forall in Hd, H. destruct (H g Hg) as (H1 & H2 & H3 & H4). specialize (Hd g Hg).
  unfold disj, grange in Hd; cbn [fst snd] in Hd.
  repeat (split; [assumption|]). apply holds_frame; [assumption|]. lia.
Qed.

Lemma franges_in ls r : In r (franges ls) -> exists i, 0 <= i < 4 /\ snd r = csz i /\ In (fst r) (ls i).
Proof.
  unfold franges. intros H. apply in_flat_map in H. destruct H as (i & Hi & H).
  apply in_map_iff in H. destruct H as (a & <- & Ha). exists i. cbn [fst snd].
  split; [|auto]. cbn [In] in Hi. lia.
Qed.

(** Taking a chunk and storing a message in it. *)
Lemma take_chunk p gl i a l img :
  PInv p gl -> 0 <= i < 4 -> lists p i = a :: l -> zlen img <= csz i -> good_img img ->
  let p1 := mkPool (bsize p) (bidx p) (set_list (lists p) i l) (bytes p) in
  exists p2, copy_to p1 a (csz i) img = Ok p2 /\ PInv p2 ((a, img, i) :: gl) /\
    lists p2 = lists p1 /\ bidx p2 = bidx p /\ bsize p2 = bsize p.
Proof.
  intros (Hb & Hpd & Hin & Hok) Hi El Hfit Hg p1.
  pose proof (franges_pop (lists p) i a l Hi El) as HP.
  assert (HP2 : Permutation (map grange gl ++ franges (lists p))
             ((a, csz i) :: (map grange gl ++ franges (set_list (lists p) i l)))).
  { rewrite HP. apply Permutation_sym, Permutation_middle. }
  pose proof (pd_perm _ _ HP2 Hpd) as Hpd2. cbn [pd] in Hpd2. destruct Hpd2 as (Hd & Hpd2).
  pose proof (Permutation_Forall HP2 Hin) as Hin2. inversion Hin2 as [|? ? Hina Hinr]; subst.
  destruct Hina as (Ha0 & Ha1); cbn [fst snd] in Ha0, Ha1.
  unfold copy_to. destruct (Z.leb_spec (zlen img) (csz i)); [|lia].
  assert (Hbnd : in_pool p1 a (zlen img) = true).
  { unfold in_pool, p1; cbn [bsize]. pose proof (zlen_nonneg img). lia. }
  rewrite Hbnd. eexists; split; [reflexivity|]. split; [|cbn; auto].
  unfold PInv, p1; cbn [bsize bidx lists bytes map].
  split; [assumption|]. split; [|split].
  - cbn [app pd grange fst snd]. split; assumption.
  - cbn [app]. constructor; [split; assumption|]. exact Hinr.
  - constructor.
    + unfold gok; cbn [fst snd]. repeat (split; [assumption|]). apply holds_write.
    + apply (gl_frame _ _ _ (csz i)); [assumption| |assumption].
      apply Forall_app in Hd. destruct Hd as (Hd & _). rewrite Forall_map in Hd. exact Hd.
Qed.

Definition class_of (b : Z) : Z := match mp_messagelistIndexForSize b with Ok i => i | _ => -1 end.

(** What an add does: never UB; either asserts, or yields a valid state. *)
Lemma add_inv p gl srcSize img :
  PInv p gl -> 24 <= srcSize <= 65535 -> good_img img ->
  match mp_addMessage p srcSize img with
  | Ok (p', a) => PInv p' ((a, img, class_of srcSize) :: gl) /\ bsize p' = bsize p
  | AssertFail => True
  | UB => False
  end.
Proof.
  intros HI Hs Hg. unfold mp_addMessage, class_of.
  destruct (class_spec srcSize) as (i & Ei & Hi0 & Hfit & _); [lia|]. rewrite Ei; cbn [obind].
  unfold MP_NUM_MESSAGE_LISTS. destruct (Z.ltb_spec i 4); [|exact I].
  change (Z.shiftl 32 i) with (csz i).
  destruct (lists p i) as [|a l] eqn:El.
  - destruct (Z.leb_spec (bidx p + MP_BLOCK_SIZE_BYTES) (bsize p)) as [Hroom|]; [|exact I].
    set (k := Z.to_nat (MP_BLOCK_SIZE_BYTES / csz i)).
    assert (Hi : 0 <= i < 4) by lia.
    destruct (push_chunks_spec k p i (bidx p) (csz i) Hi) as (H1 & H2 & H3 & H4 & H5 & H6).
    set (p1 := push_chunks p i (bidx p) (csz i) k) in *.
    assert (Hk : csz i * Z.of_nat k = 512 /\ (0 < k)%nat).
    { unfold k, MP_BLOCK_SIZE_BYTES.
      destruct (four_cases i Hi) as [-> | [-> | [-> | ->]]]; vm_compute; split; (reflexivity || lia). }
    destruct Hk as (Hk & Hkpos).
    set (p2 := mkPool (bsize p1) (bidx p + MP_BLOCK_SIZE_BYTES) (lists p1) (bytes p1)).
    assert (HI2 : PInv p2 gl).
    { destruct HI as (Hb & Hpd & Hin & Hok). pose proof (csz_pos i ltac:(lia)).
      assert (HP : Permutation (map (fun a => (a, csz i)) (chunks (bidx p) (csz i) k) ++
                        (map grange gl ++ franges (lists p)))
                     (map grange gl ++ franges (lists p1))).
      { rewrite <- H4. rewrite !app_assoc. apply Permutation_app_tail. apply Permutation_app_comm. }
      unfold PInv, p2; cbn [bsize bidx lists bytes]. rewrite H1, H3.
      split; [unfold MP_BLOCK_SIZE_BYTES in *; lia|]. split; [|split].
      - apply (pd_perm _ _ HP). apply pd_app; [apply chunks_pd; assumption|assumption|].
        intros x y Hx Hy. apply in_map_iff in Hx. destruct Hx as (z & <- & Hz).
        apply chunks_in in Hz; [|assumption]. rewrite Forall_forall in Hin. apply Hin in Hy.
        destruct Hy. unfold disj; cbn [fst snd]. lia.
      - apply (Permutation_Forall HP). apply Forall_app; split.
        + apply Forall_forall. intros x Hx. apply in_map_iff in Hx. destruct Hx as (z & <- & Hz).
          apply chunks_in in Hz; [|assumption]. unfold inside; cbn [fst snd bidx].
          unfold MP_BLOCK_SIZE_BYTES. lia.
        + eapply Forall_impl; [|exact Hin]. intros r (Ha & Hb'). unfold inside; cbn [bidx].
          unfold MP_BLOCK_SIZE_BYTES. lia.
      - assumption. }
    assert (Hne : exists a l, lists p2 i = a :: l).
    { unfold p2; cbn [lists]. destruct (lists p1 i) as [|a l] eqn:E1; [|eauto].
      cbn [length] in H6. lia. }
    destruct Hne as (a & l & E2). fold p2. unfold ml_pop. rewrite E2. cbn [obind].
    destruct (Z.leb_spec (zlen img) (csz i)) as [Hf|Hf].
    + destruct (take_chunk p2 gl i a l img HI2 Hi E2 Hf Hg) as (p3 & Ep3 & HI3 & _ & _ & Hbs).
      unfold p2 in Ep3 at 1 2 3; unfold p2 at 1 2 3. cbn [bsize bidx lists bytes] in Ep3 |- *.
      fold p2 in Ep3. 
      match goal with |- context [copy_to ?x a (csz i) img] =>
        match type of Ep3 with copy_to ?y a (csz i) img = _ => change x with y end end.
      rewrite Ep3; cbn [obind]. split; [exact HI3|]. rewrite Hbs. exact H1.
    + unfold copy_to. destruct (Z.leb_spec (zlen img) (csz i)); [lia|]. exact I.
  - unfold ml_pop. rewrite El. cbn [obind].
    destruct (Z.leb_spec (zlen img) (csz i)) as [Hf|Hf].
    + destruct (take_chunk p gl i a l img HI ltac:(lia) El Hf Hg) as (p3 & Ep3 & HI3 & _ & _ & Hbs).
      cbn zeta in Ep3. rewrite Ep3; cbn [obind]. split; [exact HI3|exact Hbs].
    + unfold copy_to. destruct (Z.leb_spec (zlen img) (csz i)); [lia|]. exact I.
Qed.

Lemma remove_nth_perm {A} k : forall (l : list A) x, nth_error l k = Some x ->
  Permutation l (x :: remove_nth k l).
Proof.
  induction k as [|k IH]; intros l x H; destruct l as [|y l]; cbn in H; try discriminate.
  - inversion H; subst. unfold remove_nth; cbn. reflexivity.
  - unfold remove_nth in *. cbn [firstn app skipn].
    rewrite perm_swap. constructor. apply (IH l x H).
Qed.

Lemma map_remove_nth {A B} (f : A -> B) k l : map f (remove_nth k l) = remove_nth k (map f l).
Proof. unfold remove_nth. rewrite map_app, firstn_map, skipn_map. reflexivity. Qed.

Lemma free_inv p gl k a img c :
  PInv p gl -> nth_error gl k = Some (a, img, c) ->
  exists p', mp_freeMessage p a = Ok p' /\ PInv p' (remove_nth k gl) /\ bsize p' = bsize p /\ bidx p' = bidx p /\
    exists i, mp_messagelistIndexForSize (zlen img) = Ok i /\ 0 <= i <= c /\
      lists p' = set_list (lists p) i (a :: lists p i).
Proof.
  intros (Hb & Hpd & Hin & Hok) Hk.
  pose proof (remove_nth_perm k gl _ Hk) as HP0.
  assert (HP : Permutation (map grange gl ++ franges (lists p))
             ((a, csz c) :: (map grange (remove_nth k gl) ++ franges (lists p)))).
  { rewrite (Permutation_map grange HP0). reflexivity. }
  pose proof (pd_perm _ _ HP Hpd) as Hpd2. cbn [pd] in Hpd2. destruct Hpd2 as (Hd & Hpd2).
  pose proof (Permutation_Forall HP Hin) as Hin2. inversion Hin2 as [|? ? Hina Hinr]; subst.
  destruct Hina as (Ha0 & Ha1); cbn [fst snd] in Ha0, Ha1.
  pose proof (Permutation_Forall HP0 Hok) as Hok2. inversion Hok2 as [|? ? Hoka Hokr]; subst.
  destruct Hoka as (Hc & Hfit & Hg & Hh); cbn [fst snd] in Hc, Hfit, Hg, Hh.
  destruct Hg as (Hlen & Hhdr).
  unfold mp_freeMessage, stored_size.
  assert (Hin8 : in_pool p a 8 = true) by (unfold in_pool; lia). rewrite Hin8. cbn [obind].
  assert (H6 : bytes p (a + 6) = nth 6 img 0).
  { replace (a + 6) with (a + Z.of_nat 6) by lia. apply Hh. unfold zlen in Hlen; lia. }
  assert (H7 : bytes p (a + 7) = nth 7 img 0).
  { replace (a + 7) with (a + Z.of_nat 7) by lia. apply Hh. unfold zlen in Hlen; lia. }
  rewrite H6, H7, Hhdr.
  destruct (class_spec (zlen img)) as (i & Ei & Hi0 & Hfi & Hmin); [lia|].
  specialize (Hmin c ltac:(lia) Hfit). rewrite Ei. cbn [obind].
  unfold MP_NUM_MESSAGE_LISTS. destruct (Z.ltb_spec i 4); [|lia].
  change (Z.shiftl 32 i) with (csz i). pose proof (csz_mono i c ltac:(lia)) as Hm.
  pose proof (csz_pos i Hi0).
  assert (Hinc : in_pool p a (csz i) = true) by (unfold in_pool; lia). rewrite Hinc.
  eexists; split; [reflexivity|].
  assert (Hzl : zlen (repeat 0 (Z.to_nat (csz i))) = csz i) by (unfold zlen; rewrite repeat_length; lia).
  assert (Hd' : Forall (disj (a, csz i)) (map grange (remove_nth k gl) ++ franges (lists p))).
  { eapply Forall_impl; [|exact Hd]. intros r; unfold disj; cbn [fst snd]; lia. }
  assert (HP3 : Permutation ((a, csz i) :: (map grange (remove_nth k gl) ++ franges (lists p)))
        (map grange (remove_nth k gl) ++ franges (set_list (lists p) i (a :: lists p i)))).
  { rewrite Permutation_middle. apply Permutation_app_head. apply franges_push; lia. }
  split; [|cbn [ml_push bsize bidx lists]; split; [reflexivity|split; [reflexivity|exists i; split; [reflexivity|split; [lia|reflexivity]]]]].
  unfold PInv. cbn [ml_push bsize bidx lists bytes]. split; [assumption|]. split; [|split].
  - apply (pd_perm _ _ HP3). cbn [pd]. split; assumption.
  - apply (Permutation_Forall HP3). constructor; [|exact Hinr].
    unfold inside; cbn [ml_push fst snd bidx]. lia.
  - apply (gl_frame _ _ _ (csz i)); [lia| |assumption].
    apply Forall_app in Hd'. destruct Hd' as (Hd' & _). rewrite Forall_map in Hd'. exact Hd'.
Qed.

(** ** Histories *)
Definition good_op (o : pool_op) : Prop :=
  match o with Add srcSize img => 24 <= srcSize <= 65535 /\ good_img img | Free _ => True end.

Lemma step_pinv p gl o :
  PInv p gl -> good_op o ->
  match pool_step (p, map fst gl) o with
  | Ok (p', live') => exists gl', live' = map fst gl' /\ PInv p' gl' /\ bsize p' = bsize p
  | AssertFail => True
  | UB => False
  end.
Proof.
  intros HI Hg. destruct o as [srcSize img|k]; cbn [pool_step].
  - destruct Hg as (Hs & Hg). pose proof (add_inv p gl srcSize img HI Hs Hg) as H.
    destruct (mp_addMessage p srcSize img) as [[p' a]| |]; cbn [obind]; auto.
    destruct H as (HI' & Hb). eexists; split; [|split; [exact HI'|exact Hb]]. reflexivity.
  - destruct (nth_error (map fst gl) k) as [[a img]|] eqn:E.
    + rewrite nth_error_map in E. destruct (nth_error gl k) as [[[a' img'] c]|] eqn:E'; cbn in E; [|discriminate E].
      inversion E; subst a' img'.
      destruct (free_inv p gl k a img c HI E') as (p' & Ep & HI' & Hb & _). rewrite Ep; cbn [obind].
      exists (remove_nth k gl). rewrite map_remove_nth. auto.
    + exists gl. auto.
Qed.

Lemma run_pinv ops : forall p gl, PInv p gl -> Forall good_op ops ->
  match pool_run (p, map fst gl) ops with
  | Ok (p', live') => exists gl', live' = map fst gl' /\ PInv p' gl' /\ bsize p' = bsize p
  | AssertFail => True
  | UB => False
  end.
Proof.
  induction ops as [|o ops IH]; intros p gl HI Hg; cbn [pool_run].
  - exists gl; auto.
  - inversion Hg as [|? ? Ho Hops]; subst. pose proof (step_pinv p gl o HI Ho) as H.
    destruct (pool_step (p, map fst gl) o) as [[p' live']| |]; cbn [obind]; auto.
    destruct H as (gl' & -> & HI' & Hb). specialize (IH p' gl' HI' Hops).
    destruct (pool_run (p', map fst gl') ops) as [[p'' live'']| |]; auto.
    destruct IH as (gl'' & E & HI'' & Hb''). exists gl''. rewrite Hb'' . auto.
Qed.

Lemma init_pinv junk kb : 0 < kb -> PInv (mp_init junk kb) [].
Proof. intros; unfold PInv, mp_init; cbn. repeat split; try lia; constructor. Qed.

Lemma pd_pairs l : pd l -> forall i j x y, nth_error l i = Some x -> nth_error l j = Some y -> i <> j -> disj x y.
Proof.
  induction l as [|z l IH]; intros H i j x y Hi Hj Hne; [destruct i; discriminate|].
  destruct H as (Hf & Hp). rewrite Forall_forall in Hf.
  destruct i as [|i]; destruct j as [|j]; cbn in Hi, Hj; try congruence.
  - inversion Hi; subst. apply Hf. eapply nth_error_In; eassumption.
  - inversion Hj; subst. apply disj_sym, Hf. eapply nth_error_In; eassumption.
  - eapply IH; eauto.
Qed.

Lemma pd_app_l l l' : pd (l ++ l') -> pd l.
Proof.
  induction l as [|x l IH]; cbn [app pd]; [auto|]. intros (Hf & Hp). split; [|auto].
  apply Forall_app in Hf; tauto.
Qed.

Lemma pinv_live p gl i j a img a' img' :
  PInv p gl -> nth_error (map fst gl) i = Some (a, img) -> nth_error (map fst gl) j = Some (a', img') -> i <> j ->
  a + zlen img <= a' \/ a' + zlen img' <= a.
Proof.
  intros (_ & Hpd & _ & Hok) Hi Hj Hne. apply pd_app_l in Hpd.
  rewrite nth_error_map in Hi, Hj.
  destruct (nth_error gl i) as [[[a1 i1] c1]|] eqn:Ei; cbn in Hi; [|discriminate].
  destruct (nth_error gl j) as [[[a2 i2] c2]|] eqn:Ej; cbn in Hj; [|discriminate].
  inversion Hi; inversion Hj; subst.
  assert (D : disj (grange (a, img, c1)) (grange (a', img', c2))).
  { eapply (pd_pairs _ Hpd i j); [rewrite nth_error_map, Ei; reflexivity|rewrite nth_error_map, Ej; reflexivity|assumption]. }
  rewrite Forall_forall in Hok.
  destruct (Hok _ (nth_error_In _ _ Ei)) as (_ & Hf1 & _). destruct (Hok _ (nth_error_In _ _ Ej)) as (_ & Hf2 & _).
  unfold disj, grange in D; cbn [fst snd] in *. lia.
Qed.

Lemma pinv_one p gl i a img :
  PInv p gl -> nth_error (map fst gl) i = Some (a, img) ->
  0 <= a /\ a + zlen img <= bsize p /\ holds (bytes p) a img.
Proof.
  intros (Hb & _ & Hin & Hok) Hi. rewrite nth_error_map in Hi.
  destruct (nth_error gl i) as [[[a1 i1] c1]|] eqn:Ei; cbn in Hi; [|discriminate]. inversion Hi; subst.
  rewrite Forall_forall in Hok. destruct (Hok _ (nth_error_In _ _ Ei)) as (_ & Hf & _ & Hh).
  apply Forall_app in Hin. destruct Hin as (Hin & _). rewrite Forall_map, Forall_forall in Hin.
  destruct (Hin _ (nth_error_In _ _ Ei)) as (H1 & H2). unfold grange in *; cbn [fst snd] in *.
  split; [lia|]. split; [lia|assumption].
Qed.
