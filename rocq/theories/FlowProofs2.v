From Coq Require Import ZifyBool FinFun.
From Verif Require Import FlowModel FlowSpec FlowProofs.

Lemma count_lets (f : nat -> list conn) c : (forall i x, In x (f i) -> c_in x = i) -> forall k a,
  count_occ conn_dec (flat_map f (seq a k)) c = if (a <=? c_in c)%nat && (c_in c <? a + k)%nat then count_occ conn_dec (f (c_in c)) c else O.
Proof.
  intros H. induction k as [|k IH]; intros a; cbn [seq flat_map].
  - cbn [count_occ]. destruct (a <=? c_in c)%nat eqn:E1, (c_in c <? a + 0)%nat eqn:E2; cbn [andb]; try reflexivity. exfalso. lia.
  - rewrite count_occ_app, IH. destruct (Nat.eq_dec a (c_in c)) as [->|N].
    + replace (S (c_in c) <=? c_in c)%nat with false by lia. replace (c_in c <=? c_in c)%nat with true by lia. replace (c_in c <? c_in c + S k)%nat with true by lia. cbn [andb]. lia.
    + assert (count_occ conn_dec (f a) c = O) as ->. { apply count_occ_not_In. intros C. apply N. symmetry. apply H. exact C. }
      replace (S a <=? c_in c)%nat with (a <=? c_in c)%nat by lia. replace (c_in c <? S a + k)%nat with (c_in c <? a + S k)%nat by lia. reflexivity.
Qed.
Lemma flat_map_map {A B C} (f : B -> list C) (h : A -> B) l : flat_map f (map h l) = flat_map (fun x => f (h x)) l.
Proof. induction l as [|x l IH]; cbn [map flat_map]; [reflexivity|rewrite IH; reflexivity]. Qed.
Lemma flat_map_flat_map {A B C} (f : B -> list C) (h : A -> list B) l : flat_map f (flat_map h l) = flat_map (fun x => flat_map f (h x)) l.
Proof. induction l as [|x l IH]; cbn [flat_map]; [reflexivity|rewrite flat_map_app, IH; reflexivity]. Qed.
Lemma map_flat_map {A B C} (f : B -> C) (h : A -> list B) l : map f (flat_map h l) = flat_map (fun x => map f (h x)) l.
Proof. induction l as [|x l IH]; cbn [flat_map]; [reflexivity|rewrite map_app, IH; reflexivity]. Qed.
Lemma flat_map_ext_in {A B} (f h : A -> list B) l : (forall x, In x l -> f x = h x) -> flat_map f l = flat_map h l.
Proof. induction l as [|x l IH]; intros H; cbn [flat_map]; [reflexivity|]. rewrite H by (left; reflexivity). rewrite IH; [reflexivity|]. intros y Hy. apply H. right. exact Hy. Qed.
Lemma in_indexed {A} (l : list A) i x : In (i, x) (indexed l) <-> nth_error l i = Some x.
Proof.
  unfold indexed. assert (H : forall a, In (i, x) (combine (seq a (length l)) l) <-> (a <= i)%nat /\ nth_error l (i - a) = Some x).
  { induction l as [|y l IH]; intros a; cbn [length seq combine].
    - split; [intros []|]. intros (_ & H). destruct (i - a)%nat; discriminate.
    - cbn [In]. rewrite IH. split.
      + intros [E|(H1 & H2)]; [injection E as -> ->; split; [lia|]; rewrite Nat.sub_diag; reflexivity|]. split; [lia|].
        replace (i - a)%nat with (S (i - S a)) by lia. exact H2.
      + intros (H1 & H2). destruct (Nat.eq_dec i a) as [->|N]; [left; rewrite Nat.sub_diag in H2; injection H2 as ->; reflexivity|right].
        split; [lia|]. replace (i - a)%nat with (S (i - S a)) in H2 by lia. exact H2. }
  rewrite H, Nat.sub_0_r. split; [tauto|]. split; [lia|assumption].
Qed.
Lemma map_fst_indexed {A} (l : list A) : map fst (indexed l) = seq 0 (length l).
Proof.
  unfold indexed. generalize 0%nat. induction l as [|x l IH]; intros a; cbn [length seq combine map fst]; [reflexivity|]. rewrite IH. reflexivity.
Qed.
Lemma NoDup_app_inv {A} (l1 l2 : list A) : NoDup (l1 ++ l2) -> NoDup l1 /\ NoDup l2 /\ (forall x, In x l1 -> In x l2 -> False).
Proof.
  induction l1 as [|x l1 IH]; cbn [app]; intros H.
  - split; [constructor|]. split; [exact H|]. intros y [].
  - inversion H; subst. destruct (IH H3) as (A1 & A2 & A3). split; [constructor; [intros C; apply H2; apply in_or_app; left; exact C|exact A1]|].
    split; [exact A2|]. intros y [<- | Hy] Hy2; [apply H2; apply in_or_app; right; exact Hy2|exact (A3 y Hy Hy2)].
Qed.

Section Steps.
Context (nin nout : Z -> nat).
Notation consistent := (consistent nin nout).

(** no connection goes to x *)
Definition untargeted (g : graph) (x : Z) : Prop := forall y k c, In c (g_outs g y k) -> c_to c <> x.
Lemma unconnected_spec g x : consistent g -> (unconnected g x <-> (forall i, g_outs g x i = []) /\ untargeted g x).
Proof.
  intros HC. pose proof HC as (W1 & W2 & W3 & W4). split.
  - intros H. split; [intros i; apply H|]. intros y k c Hc <-. destruct (W2 y k c Hc) as (<- & <-). apply (in_both nin nout g c HC) in Hc.
    destruct (H (c_in c)) as (E & _). rewrite E in Hc. destruct Hc.
  - intros (H1 & H2) i. split; [|apply H1]. destruct (g_ins g x i) as [|c l] eqn:E; [reflexivity|]. exfalso.
    assert (Hin : In c (g_ins g x i)) by (rewrite E; left; reflexivity). destruct (W1 x i c Hin) as (E1 & E2). rewrite <- E1, <- E2 in Hin.
    apply (in_both nin nout g c HC) in Hin. exact (H2 _ _ c Hin E1).
Qed.

Definition retarget (o n : Z) (c : conn) : conn := if c_to c =? o then to_obj c n else c.
Lemma rename_spec g o n : consistent g -> (forall k c, In c (g_outs g o k) -> c_to c <> o) -> n <> o -> unconnected g n ->
  nin n = nin o -> nout n = nout o ->
  exists g', reduce_object (o, ARename n (nin o) (nout o)) g = Some g' /\ consistent g' /\ (forall k, g_outs g' o k = []) /\
    (forall k, g_outs g' n k = map (moved n k) (g_outs g o k)) /\
    (forall y k, y <> o -> y <> n -> g_outs g' y k = map (retarget o n) (g_outs g y k)).
Proof.
  intros HC Hself Hno Hun Hin Hout. pose proof HC as (W1 & W2 & W3 & W4). apply (unconnected_spec g n HC) in Hun as (Hn1 & Hn2).
  cbn [reduce_object]. unfold move_list.
  assert (HF : fan_ok nin o (fun c => [to_obj c n])).
  { intros c x Hc H [<- |[]]. cbn [to_obj c_from c_out c_to c_in]. split; [reflexivity|]. split; [reflexivity|]. split; [exact Hno|].
rewrite Hin. exact H. }
  destruct (reroute nin nout o (fun c => [to_obj c n]) HF (flat_map (g_ins g o) (seq 0 (nin o))) g HC) as (g1 & E1 & HC1 & A1 & A2 & A3).
  { intros c Hc. rewrite (count_lets (g_ins g o) c); [|intros i x Hx; apply (W1 o i x Hx)]. rewrite <- W3, Hc.
    destruct ((0 <=? c_in c)%nat && (c_in c <? 0 + nin o)%nat) eqn:E; [reflexivity|]. apply count_occ_not_In. rewrite <- Hc. intros C. apply (in_both nin nout g c HC) in C.
    destruct (W4 _ _ c C) as (_ & R). rewrite Hc in R. lia. }
  { intros c Hc. apply in_flat_map in Hc as (i & _ & Hc). apply (W1 o i c Hc). }
  { intros c Hc Hcin Hf. rewrite Hf in Hcin. exact (Hself _ c Hcin Hc). }
  set (bs := map (fun i => (i, (n, i))) (seq 0 (nout o))).
  assert (Hbs : forall i x j, In (i, (x, j)) bs <-> x = n /\ j = i /\ (i < nout o)%nat).
  { intros i x j. unfold bs. rewrite in_map_iff. split.
    - intros (k & E & Hk). injection E as <- <- <-. apply in_seq in Hk. split; [reflexivity|]. split; [reflexivity|lia].
    - intros (-> & -> & Hk). exists i. split; [reflexivity|]. apply in_seq. lia. }
  assert (Hmf : map fst bs = seq 0 (nout o)) by (unfold bs; rewrite map_map; cbn [fst]; apply map_id).
  assert (Hms : map snd bs = map (pair n) (seq 0 (nout o))) by (unfold bs; rewrite map_map; reflexivity).
  assert (Hto1 : forall y k c, In c (g_outs g1 y k) -> c_to c = n -> exists c0, In c0 (g_outs g y k) /\ c_to c0 = o).
  { intros y k c Hc E. assert (Hc2 : In c (flat_map (expand o (fun c => [to_obj c n])) (g_outs g y k))).
    { rewrite <- A1. rewrite (expand_id o); [exact Hc|]. intros x Hx. eapply A3. exact Hx. }
    apply in_flat_map in Hc2 as (c0 & H0 & Hc2). unfold expand in Hc2. destruct (Z.eqb_spec (c_to c0) o) as [E0|N]; [eauto|].
    destruct Hc2 as [<- |[]]. exfalso. exact (Hn2 y k c0 H0 E). }
  destruct (move_blocks nin nout o g bs g1 HC1) as (g2 & E2 & HC2 & B1 & B2).
  { rewrite Hmf. apply seq_NoDup. }
  { rewrite Hms. apply Injective_map_NoDup; [intros a b H; congruence|apply seq_NoDup]. }
  { intros i x j Hb. apply Hbs in Hb as (-> & -> & Hb). split; [exact Hno|]. split; [lia|]. intros i' c Hc E. rewrite A2 in Hc. exact (Hn2 _ _ c Hc E). }
  { intros i c Hc. eapply A3. exact Hc. }
  { intros i x j _. apply A2. }
  assert (Elist : map (fun c => (c, [from_obj c n])) (flat_map (g_outs g o) (seq 0 (nout o))) =
                  flat_map (fun b => map (fun c => (c, [moved (fst (snd b)) (snd (snd b)) c])) (g_outs g o (fst b))) bs).
  { unfold bs. rewrite flat_map_map, map_flat_map. apply flat_map_ext_in. intros i _. cbn [fst snd]. apply map_ext_in. intros c Hc. destruct (W2 o i c Hc) as (_ & <-). reflexivity. }
  assert (Hnil : forall k, g_outs g2 o k = []).
  { intros k. destruct (lt_dec k (nout o)) as [L|L].
    - destruct (B1 k n k) as (C & _); [apply Hbs; auto|exact C].
    - destruct (g_outs g2 o k) as [|c l] eqn:Eg; [reflexivity|]. exfalso. assert (Hc : In c (g_outs g2 o k)) by (rewrite Eg; left; reflexivity).
      destruct HC2 as (_ & V2 & _ & V4). destruct (V2 o k c Hc) as (F1 & F2). destruct (V4 o k c Hc) as (F3 & _). rewrite F1, F2 in F3. lia. }
  assert (Hg1n : forall k, g_outs g1 n k = []).
  { intros k. rewrite <- (expand_id o (fun c => [to_obj c n]) (g_outs g1 n k)); [|intros c Hc; eapply A3; exact Hc]. rewrite A1, Hn1. reflexivity. }
  assert (Hkeep : forall y k, y <> o -> y <> n -> g_outs g2 y k = g_outs g1 y k).
  { intros y k N1 N2. apply B2; [intros C; contradiction|]. rewrite Hms. intros C. apply in_map_iff in C as (x & E & _). congruence. }
  assert (Hn2k : forall k, g_outs g2 n k = map (moved n k) (g_outs g o k)).
  { intros k. destruct (lt_dec k (nout o)) as [L|L].
    - destruct (B1 k n k) as (_ & C); [apply Hbs; auto|]. rewrite C, Hg1n, A2. reflexivity.
    - assert (g_outs g o k = []) as ->.
      { destruct (g_outs g o k) as [|c l] eqn:Eg; [reflexivity|]. exfalso. assert (Hc : In c (g_outs g o k)) by (rewrite Eg; left; reflexivity).
        destruct (W2 o k c Hc) as (F1 & F2). destruct (W4 o k c Hc) as (F3 & _). rewrite F1, F2 in F3. lia. }
      rewrite B2; [apply Hg1n|intros C; contradiction|]. rewrite Hms. intros C. apply in_map_iff in C as (x & E & C). injection E as ->. apply in_seq in C. lia. }
  destruct (drop_object nin nout o (nin o) (nout o) g2 HC2 eq_refl) as (g3 & E3 & HC3 & D1 & D2).
  { intros x k c Hc. destruct (Z.eq_dec x o) as [->|N1]; [rewrite Hnil in Hc; destruct Hc|]. destruct (Z.eq_dec x n) as [->|N2].
    - rewrite Hn2k in Hc. apply in_map_iff in Hc as (c0 & <- & Hc). cbn [moved c_to]. eapply Hself. exact Hc.
    - rewrite Hkeep in Hc by assumption. eapply A3. exact Hc. }
  exists g3. split; [|split; [exact HC3|split; [exact D2|split]]].
  - unfold gfold in *. rewrite fold_left_app, E1. rewrite Elist, E2. cbn [gbind]. exact E3.
  - intros k. rewrite D1 by exact Hno. apply Hn2k.
  - intros y k N1 N2. rewrite D1 by exact N1. rewrite Hkeep by assumption.
    rewrite <- (expand_id o (fun c => [to_obj c n]) (g_outs g1 y k)); [|intros c Hc; eapply A3; exact Hc]. rewrite A1.
    induction (g_outs g y k) as [|c l IH]; [reflexivity|]. cbn [flat_map map]. rewrite IH. unfold expand at 1, retarget at 2. destruct (c_to c =? o); reflexivity.
Qed.

(** ** Triggers *)
Definition cast_blocks (casts : list (option Z)) : list (nat * (Z * nat)) :=
  flat_map (fun ik : nat * option Z => match snd ik with Some x => [(fst ik, (x, O))] | None => [] end) (rev (indexed casts)).
Lemma in_cast_blocks casts i x j : In (i, (x, j)) (cast_blocks casts) <-> nth_error casts i = Some (Some x) /\ j = O.
Proof.
  unfold cast_blocks. rewrite in_flat_map. split.
  - intros ([k c] & H & Hin). apply in_rev, in_indexed in H. cbn [fst snd] in Hin. destruct c as [y|]; [|destruct Hin]. destruct Hin as [E|[]]. injection E as -> -> ->. auto.
  - intros (H & ->). exists (i, Some x). split; [apply in_rev; rewrite rev_involutive; apply in_indexed; exact H|left; reflexivity].
Qed.
Lemma NoDup_pick {A B D} (l : list A) (key : A -> B) (pick : A -> list D) (kc : D -> B) :
  (forall a c, In c (pick a) -> kc c = key a) -> (forall a, (length (pick a) <= 1)%nat) -> NoDup (map key l) -> NoDup (map kc (flat_map pick l)).
Proof.
  intros H1 H2. induction l as [|a l IH]; intros HN; cbn [flat_map map]; [constructor|]. cbn [map] in HN. inversion HN; subst.
  specialize (H2 a). destruct (pick a) as [|c [|d r]] eqn:E; cbn [app map length] in *; [apply IH; assumption| |lia].
  constructor; [|apply IH; assumption]. intros C. apply H3. apply in_map_iff in C as (c' & Ec & C). apply in_flat_map in C as (a' & Ha & C).
  apply in_map_iff. exists a'. split; [|exact Ha]. rewrite <- (H1 a' c' C), Ec. apply H1. rewrite E. left. reflexivity.
Qed.
Lemma cast_ids_nodup casts : NoDup (flat_map (fun c => match c with Some x => [x] | None => [] end) casts) -> NoDup (map snd (cast_blocks casts)).
Proof.
  intros H. unfold cast_blocks.
  assert (E : map snd (flat_map (fun ik : nat * option Z => match snd ik with Some x => [(fst ik, (x, O))] | None => [] end) (rev (indexed casts))) =
              map (fun x => (x, O)) (rev (flat_map (fun c : option Z => match c with Some x => [x] | None => [] end) casts))).
  { unfold indexed. generalize 0%nat at 2. induction casts as [|c l IH]; intros a; cbn [length seq combine rev flat_map map]; [reflexivity|].
    assert (Hl : NoDup (flat_map (fun c : option Z => match c with Some x => [x] | None => [] end) l)) by (cbn [flat_map] in H; apply NoDup_app_inv in H; tauto).
    rewrite flat_map_app, map_app, (IH Hl). cbn [flat_map snd fst]. rewrite app_nil_r, rev_app_distr, map_app. destruct c; reflexivity. }
  rewrite E. apply Injective_map_NoDup; [intros a b X; congruence|]. apply NoDup_rev. exact H.
Qed.
Lemma new_id_nth casts x : In x (flat_map (fun c : option Z => match c with Some x => [x] | None => [] end) casts) <-> exists i, nth_error casts i = Some (Some x).
Proof.
  rewrite in_flat_map. split.
  - intros (c & Hc & Hx). destruct c as [y|]; [|destruct Hx]. destruct Hx as [<- |[]]. apply In_nth_error. exact Hc.
  - intros (i & H). exists (Some x). split; [eapply nth_error_In; exact H|left; reflexivity].
Qed.

Lemma seq_spec g t casts : consistent g -> (forall k c, In c (g_outs g t k) -> c_to c <> t) -> nin t = 1%nat -> nout t = length casts ->
  NoDup (new_ids (ASeq casts)) -> (forall x, In x (new_ids (ASeq casts)) -> x <> t /\ unconnected g x /\ nin x = 1%nat /\ nout x = 1%nat) ->
  exists g', reduce_object (t, ASeq casts) g = Some g' /\ consistent g' /\ (forall k, g_outs g' t k = []) /\
    (forall i x, nth_error casts i = Some (Some x) -> g_outs g' x O = map (moved x O) (g_outs g t i)) /\
    (forall y k, y <> t -> ~ In y (new_ids (ASeq casts)) -> g_outs g' y k = flat_map (expand t (fan_out g t casts)) (g_outs g y k)).
Proof.
  intros HC Hself Hin Hout HN Hnew. pose proof HC as (W1 & W2 & W3 & W4). cbn [new_ids] in *. cbn [reduce_object]. unfold seq_list.
  assert (Hun : forall x, In x (new_ids (ASeq casts)) -> (forall i, g_outs g x i = []) /\ untargeted g x).
  { intros x Hx. destruct (Hnew x Hx) as (_ & U & _). apply (unconnected_spec g x HC). exact U. }
  assert (HF : fan_ok nin t (fan_out g t casts)).
  { intros c x Hc _ Hx. unfold fan_out in Hx. apply in_flat_map in Hx as ([i k] & Hik & Hx). apply in_rev, in_indexed in Hik. cbn [fst snd] in Hx. destruct k as [y|].
    - destruct Hx as [<- |[]]. cbn [c_from c_out c_to c_in]. assert (Hy : In y (new_ids (ASeq casts))) by (apply new_id_nth; eauto).
      destruct (Hnew y Hy) as (N & _ & E & _). split; [reflexivity|]. split; [reflexivity|]. split; [exact N|]. rewrite E. lia.
    - apply in_map_iff in Hx as (co & <- & Hco). cbn [c_from c_out c_to c_in]. split; [reflexivity|]. split; [reflexivity|]. split; [eapply Hself; exact Hco|].
      apply (W4 t i co Hco). }
  destruct (reroute nin nout t (fan_out g t casts) HF (g_ins g t O) g HC) as (g1 & E1 & HC1 & A1 & A2 & A3).
  { intros c Hc. rewrite <- W3, Hc. destruct (Nat.eq_dec (c_in c) 0) as [->|N]; [reflexivity|].
    assert (count_occ conn_dec (g_ins g t (c_in c)) c = O) as ->.
    { apply count_occ_not_In. rewrite <- Hc. intros C. apply (in_both nin nout g c HC) in C. destruct (W4 _ _ c C) as (_ & R). rewrite Hc, Hin in R. lia. }
    symmetry. apply count_occ_not_In. intros C. apply W1 in C. lia. }
  { intros c Hc. apply (W1 t O c Hc). }
  { intros c Hc Hcin Hf. rewrite Hf in Hcin. exact (Hself _ c Hcin Hc). }
  destruct (move_blocks nin nout t g (cast_blocks casts) g1 HC1) as (g2 & E2 & HC2 & B1 & B2).
  { unfold cast_blocks. apply (NoDup_pick _ fst _ fst).
    - intros [i [x|]] c Hc; cbn [fst snd] in *; [|destruct Hc]. destruct Hc as [<- |[]]. reflexivity.
    - intros [i [x|]]; cbn [fst snd length]; lia.
    - rewrite map_rev, map_fst_indexed. apply NoDup_rev, seq_NoDup. }
  { apply cast_ids_nodup. exact HN. }
  { intros i x j Hb. apply in_cast_blocks in Hb as (Hx & ->). assert (Hy : In x (new_ids (ASeq casts))) by (apply new_id_nth; eauto).
    destruct (Hnew x Hy) as (N & _ & _ & E). split; [exact N|]. split; [lia|]. intros i' c Hc. rewrite A2 in Hc. destruct (Hun x Hy) as (_ & U). eapply U. exact Hc. }
  { intros i c Hc. eapply A3. exact Hc. }
  { intros i x j _. apply A2. }
  assert (Elist : flat_map (fun ik : nat * option Z => match snd ik with Some x => map (fun c => (c, [mkConn x O (c_to c) (c_in c) (c_ctl c)])) (g_outs g t (fst ik)) | None => [] end) (rev (indexed casts)) =
                  flat_map (fun b => map (fun c => (c, [moved (fst (snd b)) (snd (snd b)) c])) (g_outs g t (fst b))) (cast_blocks casts)).
  { unfold cast_blocks. rewrite flat_map_flat_map. apply flat_map_ext_in. intros [i [x|]] _; cbn [fst snd flat_map]; [rewrite app_nil_r|]; reflexivity. }
  assert (Hg1x : forall x k, In x (new_ids (ASeq casts)) -> g_outs g1 x k = []).
  { intros x k Hx. rewrite <- (expand_id t (fan_out g t casts) (g_outs g1 x k)); [|intros c Hc; eapply A3; exact Hc]. rewrite A1. destruct (Hun x Hx) as (U & _). rewrite U. reflexivity. }
  assert (Hkeep : forall y k, y <> t -> ~ In y (new_ids (ASeq casts)) -> g_outs g2 y k = g_outs g1 y k).
  { intros y k N1 N2. apply B2; [intros C; contradiction|]. intros C. apply in_map_iff in C as ([i [x j]] & E & C). injection E as -> ->.
    apply in_cast_blocks in C as (C & _). apply N2. apply new_id_nth. eauto. }
  assert (Hxout : forall i x, nth_error casts i = Some (Some x) -> g_outs g2 x O = map (moved x O) (g_outs g t i)).
  { intros i x Hx. destruct (B1 i x O) as (_ & C); [apply in_cast_blocks; auto|]. rewrite C, Hg1x, A2; [reflexivity|]. apply new_id_nth. eauto. }
  assert (Hxother : forall x k, In x (new_ids (ASeq casts)) -> k <> O -> g_outs g2 x k = []).
  { intros x k Hx Hk. rewrite B2; [apply Hg1x; exact Hx|intros ->; destruct (Hnew t Hx) as (N & _); congruence|].
    intros C. apply in_map_iff in C as ([i [y j]] & E & C). injection E as -> ->. apply in_cast_blocks in C as (_ & C). contradiction. }
  destruct (drop_object nin nout t 1%nat (length casts) g2 HC2) as (g3 & E3 & HC3 & D1 & D2); [congruence| |].
  { intros x k c Hc. destruct (Z.eq_dec x t) as [->|N1].
    - destruct (in_dec Nat.eq_dec k (map fst (cast_blocks casts))) as [I|I].
      + apply in_map_iff in I as ([i [y j]] & E & I). cbn [fst] in E. subst i. destruct (B1 k y j I) as (C & _). rewrite C in Hc. destruct Hc.
      + rewrite B2 in Hc; [rewrite A2 in Hc; eapply Hself; exact Hc|intros _; exact I|].
        intros C. apply in_map_iff in C as ([i [y j]] & E & C). injection E as -> ->. apply in_cast_blocks in C as (C & _).
        destruct (Hnew t) as (N & _); [apply new_id_nth; eauto|congruence].
    - destruct (in_dec Z.eq_dec x (new_ids (ASeq casts))) as [I|I].
      + destruct k as [|k]; [|rewrite Hxother in Hc by (auto; lia); destruct Hc]. pose proof I as I2. apply new_id_nth in I as (i & Hi). rewrite (Hxout i x Hi) in Hc.
        apply in_map_iff in Hc as (c0 & <- & Hc). cbn [moved c_to]. eapply Hself. exact Hc.
      + rewrite Hkeep in Hc by assumption. eapply A3. exact Hc. }
  exists g3. split; [|split; [exact HC3|split; [exact D2|split]]].
  - unfold gfold in *. rewrite fold_left_app, E1. rewrite Elist, E2. cbn [gbind]. exact E3.
  - intros i x Hx. rewrite D1; [apply Hxout; exact Hx|]. apply Hnew. apply new_id_nth. eauto.
  - intros y k N1 N2. rewrite D1 by exact N1. rewrite Hkeep by assumption.
    rewrite <- (expand_id t (fan_out g t casts) (g_outs g1 y k)); [|intros c Hc; eapply A3; exact Hc]. apply A1.
Qed.
End Steps.
