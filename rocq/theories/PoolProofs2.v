(** Proofs about pool exhaustion. *)
From Verif Require Import PoolModel PoolSpec PoolProofs.
From Coq Require Import Permutation.
Require Import ZifyBool ZifyNat.

Lemma size_class_spec b : 24 <= b <= 256 ->
  exists i, size_class b = Some i /\ mp_messagelistIndexForSize b = Ok i /\ 0 <= i < 4.
Proof.
  intros Hb. destruct (class_spec b) as (i & E & Hi & Hle & Hmin); [lia|].
  assert (H0 : b <= 32 -> i <= 0) by (intros; apply (Hmin 0); [lia|exact H]).
  assert (H1 : b <= 64 -> i <= 1) by (intros; apply (Hmin 1); [lia|exact H]).
  assert (H2 : b <= 128 -> i <= 2) by (intros; apply (Hmin 2); [lia|exact H]).
  assert (H3 : i <= 3) by (apply (Hmin 3); [lia|change (csz 3) with 256; lia]).
  exists i. split; [|split; [exact E|lia]].
  assert (C : i = 0 \/ i = 1 \/ i = 2 \/ i = 3) by lia.
  change (csz 0) with 32 in *.
  destruct C as [-> | [-> | [-> | ->]]].
  - change (csz 0) with 32 in Hle. unfold size_class. destruct (Z.leb_spec b 32); [reflexivity|lia].
  - change (csz 1) with 64 in Hle. unfold size_class. destruct (Z.leb_spec b 32); [lia|].
    destruct (Z.leb_spec b 64); [reflexivity|lia].
  - change (csz 2) with 128 in Hle. unfold size_class. destruct (Z.leb_spec b 32); [lia|].
    destruct (Z.leb_spec b 64); [lia|]. destruct (Z.leb_spec b 128); [reflexivity|lia].
  - change (csz 3) with 256 in Hle. unfold size_class. destruct (Z.leb_spec b 32); [lia|].
    destruct (Z.leb_spec b 64); [lia|]. destruct (Z.leb_spec b 128); [lia|].
    destruct (Z.leb_spec b 256); [reflexivity|lia].
Qed.

Definition per (i : Z) : Z := 512 / csz i.
Lemma per_pos i : 0 <= i < 4 -> 0 < per i.
Proof. intros Hi; destruct (four_cases i Hi) as [-> | [-> | [-> | ->]]]; vm_compute; reflexivity. Qed.

(** A lighter view of what add / free do to the lists. *)
Lemma add_lists p srcSize img i :
  mp_messagelistIndexForSize srcSize = Ok i -> 0 <= i < 4 ->
  zlen img <= csz i ->
  forall p' a, mp_addMessage p srcSize img = Ok (p', a) ->
  (forall j, j <> i -> lists p' j = lists p j) /\
  ((lists p i <> [] /\ zlen (lists p' i) = zlen (lists p i) - 1 /\ bidx p' = bidx p) \/
   (lists p i = [] /\ zlen (lists p' i) = per i - 1 /\ bidx p' = bidx p + 512)).
Proof.
  intros Ei Hi Hfit p' a. unfold mp_addMessage. rewrite Ei. cbn [obind].
  unfold MP_NUM_MESSAGE_LISTS. destruct (Z.ltb_spec i 4); [|lia].
  change (Z.shiftl 32 i) with (csz i).
  destruct (lists p i) as [|b l] eqn:El.
  - destruct (Z.leb_spec (bidx p + MP_BLOCK_SIZE_BYTES) (bsize p)) as [Hroom|]; [|discriminate].
    set (k := Z.to_nat (MP_BLOCK_SIZE_BYTES / csz i)).
    assert (Hk : Z.of_nat k = per i).
    { unfold k, MP_BLOCK_SIZE_BYTES. fold (per i). pose proof (per_pos i Hi). lia. }
    destruct (push_chunks_spec k p i (bidx p) (csz i) Hi) as (H1 & H2 & H3 & H4 & H5 & H6).
    set (p1 := push_chunks p i (bidx p) (csz i) k) in *.
    unfold ml_pop. cbn [lists]. destruct (lists p1 i) as [|c l1] eqn:E1.
    { cbn [obind]. discriminate. }
    cbn [obind]. unfold copy_to. destruct (Z.leb_spec (zlen img) (csz i)); [|lia].
    match goal with |- context [if ?c then _ else UB] => destruct c end; [|discriminate].
    cbn [obind]. intros E. injection E as <- <-. cbn [lists bidx].
    split.
    + intros j Hj. rewrite set_list_other by assumption. apply H5; assumption.
    + right. split; [reflexivity|]. rewrite set_list_same. rewrite El in H6. cbn [length] in H6.
      unfold zlen, MP_BLOCK_SIZE_BYTES. lia.
  - unfold ml_pop. rewrite El. cbn [obind]. unfold copy_to.
    destruct (Z.leb_spec (zlen img) (csz i)); [|lia].
    match goal with |- context [if ?c then _ else UB] => destruct c end; [|discriminate].
    cbn [obind]. intros E. injection E as <- <-. cbn [lists bidx].
    split.
    + intros j Hj. rewrite set_list_other by assumption. reflexivity.
    + left. split; [discriminate|]. rewrite set_list_same. rewrite zlen_cons. lia.
Qed.

Definition glcount (i : Z) (gl : list gmsg) : Z := count_class i (map (fun g => snd (fst g)) gl).
Definition accurate_g (g : gmsg) : Prop := size_class (zlen (snd (fst g))) = Some (snd g).

Record EInv (p : pool) (gl : list gmsg) (bl : Z -> Z) (L : Z -> Z) : Prop := {
  e_pinv : PInv p gl;
  e_acc : Forall accurate_g gl;
  e_bl : forall i, 0 <= i < 4 -> 0 <= bl i /\ glcount i gl + zlen (lists p i) = per i * bl i;
  e_max : forall i, 0 <= i < 4 -> bl i <= blocks_for i (L i);
  e_idx : bidx p = 512 * (bl 0 + bl 1 + bl 2 + bl 3)
}.

Lemma count_cons i img l : count_class i (img :: l) = (if in_class i img then 1 else 0) + count_class i l.
Proof. unfold count_class; cbn [filter]. destruct (in_class i img); [rewrite zlen_cons; lia|lia]. Qed.

Lemma count_perm i l l' : Permutation l l' -> count_class i l = count_class i l'.
Proof.
  induction 1 as [|x l l' HP IH|x y l|l1 l2 l3 H1 IH1 H2 IH2]; rewrite ?count_cons; lia.
Qed.

Lemma per_alt i : 0 <= i < 4 -> 512 / (32 * 2 ^ i) = per i.
Proof. intros Hi; destruct (four_cases i Hi) as [-> | [-> | [-> | ->]]]; reflexivity. Qed.

Lemma blocks_for_ge i n b : 0 <= i < 4 -> per i * b < n -> b + 1 <= blocks_for i n.
Proof.
  intros Hi H. unfold blocks_for. rewrite per_alt by assumption. pose proof (per_pos i Hi).
  apply Z.div_le_lower_bound; lia.
Qed.

Lemma add_room p gl bl L srcSize img i :
  EInv p gl bl L -> 24 <= srcSize <= 65535 -> good_img img ->
  mp_messagelistIndexForSize srcSize = Ok i -> 0 <= i < 4 -> size_class (zlen img) = Some i ->
  zlen img <= csz i ->
  glcount i gl + 1 <= L i ->
  512 * (blocks_for 0 (L 0) + blocks_for 1 (L 1) + blocks_for 2 (L 2) + blocks_for 3 (L 3)) <= bsize p ->
  exists p' a bl', mp_addMessage p srcSize img = Ok (p', a) /\ EInv p' ((a, img, i) :: gl) bl' L /\ bsize p' = bsize p.
Proof.
  intros [HI Hacc Hbl Hmax Hidx] Hs Hg Ei Hi Hcls Hfit HL Hbs.
  pose proof (add_inv p gl srcSize img HI Hs Hg) as HA. unfold class_of in HA. rewrite Ei in HA.
  assert (Hroom : lists p i = [] -> bl i + 1 <= blocks_for i (L i)).
  { intros El. destruct (Hbl i Hi) as (Hb0 & Hb). rewrite El in Hb. change (zlen (@nil Z)) with 0 in Hb.
    apply blocks_for_ge; [assumption|]. lia. }
  destruct (mp_addMessage p srcSize img) as [[p' a]| |] eqn:E; [| |destruct HA].
  - destruct HA as (HI' & Hbs').
    destruct (add_lists p srcSize img i Ei Hi Hfit p' a E) as (Hoth & Hown).
    exists p', a, (fun j => if (j =? i) && match lists p i with [] => true | _ => false end then bl j + 1 else bl j).
    split; [reflexivity|]. split; [|exact Hbs'].
    assert (Hin : in_class i img = true) by (unfold in_class; rewrite Hcls; apply Z.eqb_refl).
    assert (Hnin : forall j, j <> i -> in_class j img = false).
    { intros j Hj. unfold in_class; rewrite Hcls. apply Z.eqb_neq; congruence. }
    constructor.
    + exact HI'.
    + constructor; [exact Hcls|exact Hacc].
    + intros j Hj. destruct (Hbl j Hj) as (Hb0 & Hb). unfold glcount in *; cbn [map fst snd].
      rewrite count_cons. destruct (Z.eqb_spec j i) as [->|Hne]; cbn [andb].
      * rewrite Hin. destruct Hown as [(Hne & Hl & _)|(Hnil & Hl & _)].
        -- destruct (lists p i); [congruence|]. lia.
        -- rewrite Hnil in *. change (zlen (@nil Z)) with 0 in Hb. lia.
      * rewrite Hnin by assumption. rewrite Hoth by assumption. lia.
    + intros j Hj. destruct (Z.eqb_spec j i) as [->|Hne]; cbn [andb]; [|auto].
      destruct (lists p i) eqn:El; [auto|auto].
    + destruct Hown as [(Hne & Hl & Hx)|(Hnil & Hl & Hx)]; rewrite Hx, Hidx.
      * destruct (lists p i); [congruence|]. rewrite !andb_false_r. lia.
      * rewrite Hnil. rewrite !andb_true_r.
        destruct (four_cases i Hi) as [-> | [-> | [-> | ->]]]; cbn [Z.eqb Pos.eqb]; lia.
  - exfalso. clear HA. unfold mp_addMessage in E. rewrite Ei in E. cbn [obind] in E.
    unfold MP_NUM_MESSAGE_LISTS in E. destruct (Z.ltb_spec i 4); [|lia].
    change (Z.shiftl 32 i) with (csz i) in E.
    assert (Hcopy : forall q b, copy_to q b (csz i) img <> AssertFail).
    { intros q b. unfold copy_to. destruct (Z.leb_spec (zlen img) (csz i)); [|lia].
      destruct (in_pool q b (zlen img)); discriminate. }
    destruct (lists p i) as [|b l] eqn:El.
    + destruct (Z.leb_spec (bidx p + MP_BLOCK_SIZE_BYTES) (bsize p)) as [Hr|Hr].
      * unfold ml_pop in E. match type of E with context [match ?x with [] => UB | _ :: _ => _ end] => destruct x end;
          cbn [obind] in E; [discriminate|].
        match type of E with obind (copy_to ?q ?b _ _) _ = _ => pose proof (Hcopy q b); destruct (copy_to q b (csz i) img) end;
          cbn [obind] in E; congruence.
      * specialize (Hroom eq_refl). unfold MP_BLOCK_SIZE_BYTES in Hr.
        pose proof (Hmax 0 ltac:(lia)). pose proof (Hmax 1 ltac:(lia)).
        pose proof (Hmax 2 ltac:(lia)). pose proof (Hmax 3 ltac:(lia)).
        destruct (four_cases i Hi) as [-> | [-> | [-> | ->]]]; lia.
    + unfold ml_pop in E. rewrite El in E. cbn [obind] in E.
      match type of E with obind (copy_to ?q ?b _ _) _ = _ => pose proof (Hcopy q b); destruct (copy_to q b (csz i) img) end;
          cbn [obind] in E; congruence.
Qed.

Lemma free_room p gl bl L k a img c :
  EInv p gl bl L -> nth_error gl k = Some (a, img, c) ->
  exists p', mp_freeMessage p a = Ok p' /\ EInv p' (remove_nth k gl) bl L /\ bsize p' = bsize p.
Proof.
  intros [HI Hacc Hbl Hmax Hidx] Hk.
  destruct (free_inv p gl k a img c HI Hk) as (p' & Ep & HI' & Hb & Hx & i & Ei & Hi & Hl).
  exists p'. split; [exact Ep|]. split; [|exact Hb].
  pose proof (remove_nth_perm k gl _ Hk) as HP.
  pose proof (Permutation_Forall HP Hacc) as Hacc2. inversion Hacc2 as [|? ? Ha Har]; subst.
  unfold accurate_g in Ha; cbn [fst snd] in Ha.
  destruct HI as (_ & _ & _ & Hok).
  pose proof (Permutation_Forall HP Hok) as Hok2. inversion Hok2 as [|? ? Hoka _]; subst.
  destruct Hoka as (Hc & Hfit & (Hlen & _) & _); cbn [fst snd] in Hc, Hfit, Hlen.
  assert (Hic : i = c).
  { destruct (size_class_spec (zlen img)) as (i' & E1 & E2 & _).
    - assert (csz c <= csz 3) by (apply csz_mono; lia). change (csz 3) with 256 in *. lia.
    - rewrite E2 in Ei. injection Ei as <-. congruence. }
  subst c.
  constructor.
  - exact HI'.
  - exact Har.
  - intros j Hj. destruct (Hbl j Hj) as (Hb0 & Hbj). split; [exact Hb0|]. rewrite <- Hbj. rewrite Hl.
    unfold glcount. rewrite (count_perm j _ _ (Permutation_map (fun g => snd (fst g)) HP)).
    cbn [map fst snd]. rewrite count_cons. unfold in_class. rewrite Ha.
    destruct (Z.eqb_spec i j) as [->|Hne].
    + rewrite set_list_same, zlen_cons. lia.
    + rewrite set_list_other by congruence. lia.
  - exact Hmax.
  - rewrite Hx. exact Hidx.
Qed.

Lemma run_room ops : forall p gl bl L,
  EInv p gl bl L -> Forall accurate_op ops ->
  (forall pre post i, ops = pre ++ post -> 0 <= i < 4 ->
     count_class i (held (map (fun g => snd (fst g)) gl) pre) <= L i) ->
  512 * (blocks_for 0 (L 0) + blocks_for 1 (L 1) + blocks_for 2 (L 2) + blocks_for 3 (L 3)) <= bsize p ->
  exists p' live', pool_run (p, map fst gl) ops = Ok (p', live') /\
    map snd live' = held (map (fun g => snd (fst g)) gl) ops.
Proof.
  induction ops as [|o ops IH]; intros p gl bl L HE Hacc Hcnt Hbs; cbn [pool_run].
  - exists p, (map fst gl). split; [reflexivity|]. cbn [held]. rewrite map_map. reflexivity.
  - inversion Hacc as [|? ? Ho Hops]; subst.
    destruct o as [srcSize img|k]; cbn [pool_step].
    + destruct Ho as (Hs & (Himg & Hhdr) & Hcls).
      destruct (size_class_spec srcSize Hs) as (i & E1 & E2 & Hi).
      assert (Hc2 : size_class (zlen img) = Some i) by congruence.
      assert (Hle : 24 <= zlen img <= 256).
      { unfold size_class in Hc2. destruct (Z.leb_spec (zlen img) 32); [lia|].
        destruct (Z.leb_spec (zlen img) 64); [lia|]. destruct (Z.leb_spec (zlen img) 128); [lia|].
        destruct (Z.leb_spec (zlen img) 256); [lia|discriminate]. }
      assert (Hfit : zlen img <= csz i).
      { destruct (size_class_spec (zlen img) Hle) as (i' & E1' & E2' & _).
        destruct (class_spec (zlen img)) as (i'' & E'' & _ & Hf & _); [lia|]. congruence. }
      assert (HL : glcount i gl + 1 <= L i).
      { specialize (Hcnt [Add srcSize img] ops i eq_refl Hi). cbn [held] in Hcnt.
        rewrite count_cons in Hcnt. unfold in_class in Hcnt. rewrite Hc2, Z.eqb_refl in Hcnt. unfold glcount. lia. }
      destruct (add_room p gl bl L srcSize img i HE ltac:(lia) (conj Himg Hhdr) E2 Hi Hc2 Hfit HL Hbs)
        as (p' & a & bl' & Ea & HE' & Hb').
      rewrite Ea. cbn [obind].
      destruct (IH p' ((a, img, i) :: gl) bl' L HE' Hops) as (p'' & live' & Er & Hm).
      * intros pre post j -> Hj. specialize (Hcnt (Add srcSize img :: pre) post j eq_refl Hj). exact Hcnt.
      * rewrite Hb'. exact Hbs.
      * exists p'', live'. split; [exact Er|exact Hm].
    + rewrite nth_error_map. destruct (nth_error gl k) as [[[a img] c]|] eqn:Ek; cbn [option_map fst].
      * destruct (free_room p gl bl L k a img c HE Ek) as (p' & Ef & HE' & Hb').
        rewrite Ef. cbn [obind].
        assert (Heq : firstn k (map (fun g : gmsg => snd (fst g)) gl) ++ skipn (S k) (map (fun g : gmsg => snd (fst g)) gl)
                      = map (fun g : gmsg => snd (fst g)) (remove_nth k gl)).
        { rewrite map_remove_nth. reflexivity. }
        destruct (IH p' (remove_nth k gl) bl L HE' Hops) as (p'' & live' & Er & Hm).
        -- intros pre post j -> Hj. specialize (Hcnt (Free k :: pre) post j eq_refl Hj).
           cbn [held] in Hcnt. rewrite Heq in Hcnt. exact Hcnt.
        -- rewrite Hb'. exact Hbs.
        -- exists p'', live'. rewrite map_remove_nth in Er. split; [exact Er|].
           cbn [held]. rewrite Heq. exact Hm.
      * assert (Heq : firstn k (map (fun g : gmsg => snd (fst g)) gl) ++ skipn (S k) (map (fun g : gmsg => snd (fst g)) gl)
                      = map (fun g : gmsg => snd (fst g)) gl).
        { apply nth_error_None in Ek. rewrite firstn_all2 by (rewrite map_length; lia).
          rewrite skipn_all2 by (rewrite map_length; lia). apply app_nil_r. }
        cbn [obind].
        destruct (IH p gl bl L HE Hops) as (p'' & live' & Er & Hm).
        -- intros pre post j -> Hj. specialize (Hcnt (Free k :: pre) post j eq_refl Hj).
           cbn [held] in Hcnt. rewrite Heq in Hcnt. exact Hcnt.
        -- exact Hbs.
        -- exists p'', live'. split; [exact Er|]. cbn [held]. rewrite Heq. exact Hm.
Qed.

Lemma init_einv junk kb L : 0 < kb -> (forall i, 0 <= i < 4 -> 0 <= L i) -> EInv (mp_init junk kb) [] (fun _ => 0) L.
Proof.
  intros Hk HL. constructor.
  - apply init_pinv; assumption.
  - constructor.
  - intros i Hi. cbn. lia.
  - intros i Hi. unfold blocks_for. rewrite per_alt by assumption. pose proof (per_pos i Hi).
    apply Z.div_pos; [|lia]. specialize (HL i Hi). lia.
  - reflexivity.
Qed.
