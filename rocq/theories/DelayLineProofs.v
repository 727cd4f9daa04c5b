(** Proofs about the delay line. *)
From Verif Require Import TableModel TableSpec TableProofs SigTabModel SigTabSpec SigTabProofs SigTabProps DelayLineModel DelayLineSpec
  BinopSpec BinopProofs BinopValSpec BinopValProofs Float32Facts PhasorProofs.
From Flocq Require Import Core.
From Coq Require Import ZifyBool Sorted Reals Lra.
Local Open Scope Z_scope.

(** *** Whole numbers in messages. *)
Lemma sub_int f g a b : is_int f a -> is_int g b -> Z.abs (a - b) <= 2 ^ 24 -> is_int (fsub f g) (a - b).
Proof.
  intros [F1 F2] [G1 G2] H. destruct (fsub_exact f g (a - b) 0 F1 G1) as [A B]; [|auto|lia|].
  - rewrite F2, G2, minus_IZR. cbn. lra.
  - split; auto. rewrite A. cbn. lra.
Qed.
Lemma mul_int f g a b : is_int f a -> is_int g b -> Z.abs (a * b) <= 2 ^ 24 -> is_int (fmul f g) (a * b).
Proof.
  intros [F1 F2] [G1 G2] H. destruct (fmul_exact f g (a * b) 0 F1 G1) as [A B]; [|auto|lia|].
  - rewrite F2, G2, mult_IZR. cbn. lra.
  - split; auto. rewrite A. cbn. lra.
Qed.
Lemma ltb_int f g a b : is_int f a -> is_int g b -> fltb f g = (a <? b).
Proof.
  intros [F1 F2] [G1 G2]. pose proof (fltb_iff f g F1 G1) as H. rewrite F2, G2 in H.
  destruct (Z.ltb_spec a b) as [L|L].
  - apply H. apply IZR_lt. auto.
  - destruct (fltb f g); auto. assert (IZR a < IZR b)%R by tauto. apply lt_IZR in H0. lia.
Qed.
Lemma max_int f g a b : is_int f a -> is_int g b -> is_int (fmax f g) (Z.max a b).
Proof.
  intros F G. unfold fmax. rewrite (finite_not_nan f (proj1 F)), (finite_not_nan g (proj1 G)), (ltb_int f g a b F G).
  destruct (Z.ltb_spec a b); [rewrite Z.max_r by lia|rewrite Z.max_l by lia]; auto.
Qed.
Lemma abs_int f a : is_int f a -> is_int (fabs f) (Z.abs a).
Proof. intros [F1 F2]. unfold is_int, fabs. rewrite is_finite_Babs, B2R_Babs, F2, abs_IZR. auto. Qed.
Lemma zero_int : is_int fzero 0. Proof. apply zero_zero. Qed.
Lemma u32_int f a : is_int f a -> 0 <= a < 4294967296 -> to_u32 f = Ok a.
Proof.
  intros [F1 F2] H. unfold to_u32. rewrite F1, trunc_R, F2, Ztrunc_IZR.
  replace ((0 <=? a) && (a <? 4294967296)) with true by lia. reflexivity.
Qed.
Lemma delay_int f a : is_int f a -> 0 <= a < 4294967296 -> delay_samples f = Ok a.
Proof.
  intros F H. unfold delay_samples. apply u32_int; auto. replace a with (Z.max 0 a) by lia. apply max_int; auto. apply zero_int.
Qed.

(** *** The list of pending messages. *)
Definition le_ev (a b : Z * ev) : Prop := fst a <= fst b.
Lemma insert_sorted e l : StronglySorted le_ev l -> StronglySorted le_ev (insert_ev e l).
Proof.
  induction 1 as [|x l S IH F]; cbn [insert_ev]. { repeat constructor. }
  destruct (Z.ltb_spec (fst e) (fst x)) as [L|L].
  - constructor; [constructor; auto|]. constructor; [unfold le_ev; lia|].
    eapply Forall_impl; [|exact F]. unfold le_ev. intros a Ha. lia.
  - constructor; auto. clear IH S. induction l as [|y l IH]; cbn [insert_ev]. { repeat constructor. exact L. }
    inversion F; subst. destruct (fst e <? fst y); repeat constructor; auto.
Qed.
Lemma insert_forall (P : Z * ev -> Prop) e l : P e -> Forall P l -> Forall P (insert_ev e l).
Proof.
  intros Pe F. induction F as [|x l Px F IH]; cbn [insert_ev]; [auto|]. destruct (fst e <? fst x); auto.
Qed.
Lemma filter_insert_out (f : Z * ev -> bool) e l : f e = false -> filter f (insert_ev e l) = filter f l.
Proof.
  intro E. induction l as [|x l IH]; cbn [insert_ev filter]; [rewrite E; auto|].
  destruct (fst e <? fst x); cbn [filter]; [rewrite E; auto|rewrite IH; auto].
Qed.
Lemma filter_insert_only (f : Z * ev -> bool) e l : f e = true -> filter f l = [] -> filter f (insert_ev e l) = [e].
Proof.
  intros E. induction l as [|x l IH]; cbn [insert_ev filter]; [rewrite E; auto|]. intro H.
  destruct (f x) eqn:X; [discriminate|]. destruct (fst e <? fst x); cbn [filter]; rewrite ?E, X; [rewrite H|rewrite IH]; auto.
Qed.
Lemma filter_insert_last (f : Z * ev -> bool) e l : f e = true -> StronglySorted le_ev l -> Forall (fun x => fst x <= fst e) (filter f l) ->
  filter f (insert_ev e l) = filter f l ++ [e].
Proof.
  intros E S F. induction S as [|x l S IH G]; cbn [insert_ev filter]; [rewrite E; auto|].
  cbn [filter] in F. destruct (Z.ltb_spec (fst e) (fst x)) as [L|L].
  - assert (f x = false) as X. { destruct (f x); auto. inversion F; subst. lia. }
    assert (filter f l = []) as Y.
    { rewrite X in F. clear - G F L. induction l as [|y l IH]; cbn; auto. inversion G; subst. cbn [filter] in F.
      destruct (f y). { inversion F; subst. unfold le_ev in *. lia. } auto. }
    cbn [filter]. rewrite E, X, Y. auto.
  - cbn [filter]. destruct (f x); [inversion F; subst; rewrite IH; auto|apply IH; auto].
Qed.
Lemma filter_sorted (f : Z * ev -> bool) l : StronglySorted le_ev l -> StronglySorted le_ev (filter f l).
Proof.
  induction 1 as [|x l S IH F]; cbn [filter]; [constructor|]. destruct (f x); auto. constructor; auto.
  rewrite Forall_forall in *. intros y Y. apply filter_In in Y. apply F, Y.
Qed.
Lemma filter_forall {A} (P : A -> Prop) f l : Forall P l -> Forall P (filter f l).
Proof. rewrite !Forall_forall. intros H x X. apply filter_In in X. apply H, X. Qed.

Definition is_w (e : Z * ev) : bool := match snd e with WLoop => true | _ => false end.
Definition is_set (e : Z * ev) : bool := match snd e with RSet _ => true | _ => false end.
Definition due (till : Z) (l : list (Z * ev)) := filter (fun e => fst e <? till) l.

Lemma last_cons {A} (l : list A) : forall a d, last (a :: l) d = last l a.
Proof.
  induction l as [|b l IH]; intros a d; [reflexivity|].
  change (last (a :: b :: l) d) with (last (b :: l) d). rewrite (IH b d), (IH b a). reflexivity.
Qed.

Section P.
Context {V : Type}.
Variable vzero : V.
Variable N : Z.
Hypothesis HN : simd N.
Notation NP := (N_pos N HN).
Variable S : Z.
Hypothesis HS : N <= S < 2 ^ 24.
Hypothesis DS : (N | S).
Variable x : list V.

Record inv (b d : Z) (st : @dline V) : Prop := {
  i_sound : sound N (d_t st);
  i_size : t_size (d_t st) = S;
  i_forced : r_forced (d_r st) = true;
  i_w8 : d_w8 st = S; i_w12 : d_w12 st = N; i_r15 : d_r15 st = S;
  i_sorted : StronglySorted le_ev (d_pend st);
  i_after : Forall (fun e => b <= fst e) (d_pend st);
  i_W : exists q, filter is_w (d_pend st) = [(q * S, WLoop)] /\ b <= q * S <= b + S /\ d_wh st = S - (q * S - b);
  i_R : exists R e c, filter is_r (d_pend st) = [(R, e)] /\ (N | c) /\ c <= R < c + N /\ b <= c <= b + S /\
          r_head (d_r st) = S - (c - b);
  i_D : exists D q, whole N d D /\ D <= S /\ r_head (d_r st) = b - D + q * S;
  i_th : exists q, t_head (d_t st) = b + q * S /\ 0 <= t_head (d_t st) <= S;
  i_cells : forall t, b - S <= t < b -> get (d_t st) (t mod S) = Ok (sample vzero x t) }.

Lemma mult_le a c : (N | a) -> (N | c) -> a < c + N -> a <= c.
Proof.
  intros [k1 ->] [k2 ->] H. pose proof NP. assert (k1 < k2 + 1) by nia. nia.
Qed.
Lemma mod_unique a q : 0 <= a < S -> (a + q * S) mod S = a.
Proof. intro H. rewrite Z.mod_add by lia. apply Z.mod_small. auto. Qed.

(** Sizes. *)
Lemma Ssmall : S < 16777216. Proof. change (2 ^ 24) with 16777216 in HS. lia. Qed.
Lemma size_int : is_int (of_int S) S.
Proof. pose proof NP. apply of_int_is_int. lia. Qed.

Lemma set_spec b d st ts f d' : (N | b) -> inv b d st -> b <= ts < b + N -> is_int f d' -> 0 <= d' <= S ->
  exists st1, handle vzero N st ts (RSet f) = Ok st1 /\ inv b d' st1 /\
    due (b + N) (d_pend st1) = due (b + N) (filter (fun e => negb (is_r e)) (d_pend st)) /\
    filter is_set (d_pend st1) = filter is_set (d_pend st).
Proof.
  intros Nb I HT F HD. pose proof NP as NP. pose proof Ssmall as SS.
  destruct I as [Is Iz If I8 I12 I15 Iso Ia IW IR ID Ith Ic]. destruct Ith as (qh & TH & HH). set (H := t_head (d_t st)) in *.
  unfold handle. rewrite Iz. rewrite (delay_int _ S size_int) by lia. cbn [obind].
  set (m := Z.max d' N). assert (HM : N <= m <= S) by lia.
  assert (IN : is_int (of_int N) N) by (apply of_int_is_int; lia).
  assert (IH : is_int (of_int H) H) by (apply of_int_is_int; lia).
  assert (IP : is_int (fsub (of_int H) (fmax f (of_int N))) (H - m)).
  { apply sub_int; auto. - apply max_int; auto. - lia. }
  cbn [cancel_r with_r15 d_t d_r sTabread_onMessage0]. fold H.
  rewrite (u32_int _ _ (abs_int _ _ IP)) by lia. cbn [obind]. rewrite (ltb_int _ _ _ _ IP zero_int), If, Iz.
  set (p := if H - m <? 0 then u32 (S - Z.abs (H - m)) else Z.abs (H - m)).
  assert (PE : exists q, p = H - m + q * S /\ 0 <= p < S).
  { unfold p. destruct (Z.ltb_spec (H - m) 0); [exists 1; rewrite u32_id; lia|exists 0; lia]. }
  destruct PE as (qp & PE & PR). destruct (align_spec N HN p) as [A1 A2]; [lia|].
  set (h' := align_down N p) in *.
  assert (H0 : 0 <= h' <= S - N).
  { destruct A1 as [k1 A1]. destruct DS as [k2 DS']. assert (-1 < k1) by nia. assert (k1 < k2) by nia. nia. }
  assert (IS : is_int (of_int h') h') by (apply of_int_is_int; lia).
  assert (I9 : is_int (fmul (fsub (of_int h') (of_int S)) (of_int (-1))) (S - h')).
  { replace (S - h') with ((h' - S) * -1) by lia. apply mul_int; [|apply of_int_is_int; lia|lia]. apply sub_int; auto. apply size_int. lia. }
  rewrite (delay_int _ _ I9) by lia. cbn [obind].
  eexists. split; [reflexivity|].
  set (l := filter (fun e => negb (is_r e)) (d_pend st)).
  assert (LR : filter is_r l = []).
  { unfold l. clear. induction (d_pend st) as [|e l IH]; cbn; auto. destruct (is_r e) eqn:E; cbn; auto. rewrite E. auto. }
  assert (Lo : forall g, (forall e, is_r e = true -> g e = false) -> filter g l = filter g (d_pend st)).
  { intros g G. unfold l. clear - G. induction (d_pend st) as [|e l IH]; cbn; auto. destruct (is_r e) eqn:E; cbn.
    - rewrite (G e E). auto. - rewrite IH. auto. }
  assert (GW : forall e, is_r e = true -> is_w e = false) by (intros [? []]; cbn; auto; discriminate).
  assert (GS : forall e, is_r e = true -> is_set e = false) by (intros [? []]; cbn; auto; discriminate).
  cbn [sched with_r d_pend cancel_r with_r15]. fold l.
  split; [|split].
  - constructor; cbn [sched with_r d_t d_r d_w8 d_w12 d_r15 d_pend d_wh cancel_r with_r15 r_forced r_head]; auto.
    + apply insert_sorted. apply filter_sorted. auto.
    + apply insert_forall; [cbn; lia|]. apply filter_forall. auto.
    + destruct IW as (q & W1 & W2 & W3). exists q. fold l. rewrite filter_insert_out by reflexivity. rewrite (Lo is_w GW). auto.
    + exists (ts + (S - h')), RFirst, (b + (S - h')). fold l. split; [apply filter_insert_only; auto|].
      split. { apply Z.divide_add_r; auto. apply Z.divide_sub_r; auto. } lia.
    + exists (m + (p - h')), (qh + qp). split; [|split; [|lia]].
      * split.
        -- replace (m + (p - h')) with (b + qh * S + qp * S - h') by lia.
           apply Z.divide_sub_r; auto. repeat apply Z.divide_add_r; auto; apply Z.divide_mul_r; auto.
        -- rewrite Z.max_comm. fold m. lia.
      * assert (DD : (N | m + (p - h'))).
        { replace (m + (p - h')) with (b + qh * S + qp * S - h') by lia.
          apply Z.divide_sub_r; auto. repeat apply Z.divide_add_r; auto; apply Z.divide_mul_r; auto. }
        destruct DD as [k1 DD]. destruct DS as [k2 DS']. assert (k1 < k2 + 1) by nia. nia.
    + exists qh. auto.
  - unfold due. apply filter_insert_out. cbn. lia.
  - rewrite filter_insert_out by reflexivity. apply Lo. exact GS.
Qed.

Lemma event_inv b d st ts e l : (N | b) -> inv b d st -> d_pend st = (ts, e) :: l -> ts < b + N ->
  (forall f, e = RSet f -> exists d', is_int f d' /\ 0 <= d' <= S) ->
  exists st1, handle vzero N (with_pend st l) ts e = Ok st1 /\
    (forall f d', e = RSet f -> is_int f d' -> inv b d' st1) /\ ((forall f, e <> RSet f) -> inv b d st1) /\
    (length (due (b + N) (d_pend st1)) <= length (due (b + N) l))%nat /\
    filter is_set (d_pend st1) = filter is_set l.
Proof.
  intros Nb I EP HT HF. pose proof NP as NP. pose proof Ssmall as SS.
  destruct I as [Is Iz If I8 I12 I15 Iso Ia IW IR ID Ith Ic].
  rewrite EP in Iso, Ia, IW, IR. inversion Iso as [|? ? Sl Fl]; subst. inversion Ia as [|? ? Pb Al]; subst. cbn [fst] in Pb.
  pose proof Is as (Own & Div & Alloc).
  destruct e as [| | | |f]; cbn [filter is_w is_r snd] in IW, IR.
  - (* WLoop *)
    clear HF. destruct IW as (q & W1 & W2 & W3). injection W1 as WT W1. assert (WQ : q * S = b).
    { destruct Nb as [kb Nb]. destruct DS as [ks DS']. assert (exists k, q * S = k * N) as [k K] by (exists (q * ks); nia).
      assert (kb <= k) by nia. assert (k < kb + 1) by nia. nia. }
    cbn [handle sched with_pend d_t d_wh d_r d_w8 d_w12 d_r15 d_pend sTabwrite_onMessage1 obind].
    eexists. split; [reflexivity|]. split; [discriminate|]. cbn [with_wh with_t sched with_pend d_pend d_t d_wh d_r d_w8 d_w12 d_r15].
    rewrite I8, I12. split; [intros _|split].
    + constructor; cbn [with_wh with_t sched with_pend d_pend d_t d_wh d_r d_w8 d_w12 d_r15]; auto.
      * apply insert_sorted, insert_sorted; auto.
      * apply insert_forall; [cbn; lia|]. apply insert_forall; [cbn; lia|auto].
      * exists (q + 1). split; [|lia]. replace ((q + 1) * S) with (ts + S) by lia.
        apply filter_insert_only; auto. rewrite filter_insert_out by reflexivity. auto.
      * destruct IR as (R & e & c & R1 & R2). exists R, e, c. rewrite !filter_insert_out by reflexivity. auto.
    + unfold due. rewrite !filter_insert_out by (cbn; lia). auto.
    + rewrite !filter_insert_out by reflexivity. auto.
  - (* WMirror *)
    clear HF. cbn [handle with_pend d_t]. destruct (mirror_spec N HN (d_t st) Own) as (t' & E & O' & S1 & _ & G1 & _).
    rewrite E. cbn [obind]. eexists. split; [reflexivity|]. split; [discriminate|]. cbn [with_wh with_t sched with_pend d_pend d_t d_wh d_r d_w8 d_w12 d_r15].
    split; [intros _|split; auto].
    assert (AL' : t_allocated t' = t_allocated (d_t st) /\ t_head t' = t_head (d_t st)).
    { revert E. unfold hTable_mirror. destruct (read_cells _ _ _); cbn [obind]; try discriminate.
      destruct (write_cells _ _ _); cbn [obind]; try discriminate. intro E. injection E as <-. auto. }
    destruct AL' as [AL' TH']. constructor; cbn [with_wh with_t sched with_pend d_pend d_t d_wh d_r d_w8 d_w12 d_r15]; auto.
    + apply (sound_store N (d_t st)); auto.
    + congruence.
    + rewrite TH'. auto.
    + intros t Ht. rewrite G1; auto. rewrite Iz. apply Z.mod_pos_bound. lia.
  - (* RFirst *)
    clear HF. destruct IR as (R & e & c & R1 & R2 & R3 & R4 & R5). injection R1 as RT Re R1. subst R e.
    assert (CB : c = b). { destruct Nb as [kb ->]. destruct R2 as [kc ->]. assert (kb < kc + 1) by nia. assert (kc < kb + 1) by nia. nia. }
    cbn [handle sched with_pend d_t d_wh d_r d_w8 d_w12 d_r15 d_pend sTabread_onMessage0 obind].
    eexists. split; [reflexivity|]. split; [discriminate|]. cbn [with_r sched with_pend d_pend d_t d_wh d_r d_w8 d_w12 d_r15].
    rewrite I15. split; [intros _|split].
    + constructor; cbn [with_r sched with_pend d_pend d_t d_wh d_r d_w8 d_w12 d_r15 r_forced r_head]; auto.
      * apply insert_sorted; auto.
      * apply insert_forall; [cbn; lia|auto].
      * rewrite filter_insert_out by reflexivity. auto.
      * exists (ts + S), RLoop, (c + S). split; [apply filter_insert_only; auto|]. split; [apply Z.divide_add_r; auto|]. lia.
      * destruct ID as (D & q & D1 & D2 & D3). exists D, (q - 1). split; auto. split; auto. lia.
    + unfold due. rewrite !filter_insert_out by (cbn; lia). auto.
    + rewrite !filter_insert_out by reflexivity. auto.
  - (* RLoop *)
    clear HF. destruct IR as (R & e & c & R1 & R2 & R3 & R4 & R5). injection R1 as RT Re R1. subst R e.
    assert (CB : c = b). { destruct Nb as [kb ->]. destruct R2 as [kc ->]. assert (kb < kc + 1) by nia. assert (kc < kb + 1) by nia. nia. }
    cbn [handle sched with_pend with_r d_t d_wh d_r d_w8 d_w12 d_r15 d_pend sTabread_onMessage0 obind].
    eexists. split; [reflexivity|]. split; [discriminate|]. cbn [with_r sched with_pend d_pend d_t d_wh d_r d_w8 d_w12 d_r15].
    rewrite I15. split; [intros _|split].
    + constructor; cbn [with_r sched with_pend d_pend d_t d_wh d_r d_w8 d_w12 d_r15 r_forced r_head]; auto.
      * apply insert_sorted; auto.
      * apply insert_forall; [cbn; lia|auto].
      * rewrite filter_insert_out by reflexivity. auto.
      * exists (ts + S), RLoop, (c + S). split; [apply filter_insert_only; auto|]. split; [apply Z.divide_add_r; auto|]. lia.
      * destruct ID as (D & q & D1 & D2 & D3). exists D, (q - 1). split; auto. split; auto. lia.
    + unfold due. rewrite !filter_insert_out by (cbn; lia). auto.
    + rewrite !filter_insert_out by reflexivity. auto.
  - (* RSet *)
    destruct (HF f eq_refl) as (d' & D1 & D2).
    assert (I2 : inv b d (with_pend st l)) by (constructor; cbn [with_pend d_pend d_t d_wh d_r d_w8 d_w12 d_r15]; auto).
    destruct (set_spec b d (with_pend st l) ts f d') as (st1 & E & I3 & G1 & G2); auto; try lia.
    exists st1. split; [auto|]. split; [|split; [intro X; exfalso; apply (X f); auto|split; [|exact G2]]].
    + intros g d2 Eg Hd. injection Eg as <-. assert (d2 = d'). { apply eq_IZR. destruct D1, Hd. congruence. } subst. auto.
    + rewrite G1. cbn [with_pend d_pend]. clear. unfold due. induction l as [|e l IH]; cbn; auto.
      destruct (is_r e); cbn; destruct (fst e <? b + N); cbn; lia.
Qed.

Definition set_is (e : Z * ev) (d : Z) : Prop := exists f, snd e = RSet f /\ is_int f d /\ 0 <= d <= S.

Lemma none_due b d st ts e l ds : inv b d st -> d_pend st = (ts, e) :: l -> b + N <= ts ->
  Forall2 set_is (filter is_set (d_pend st)) ds -> Forall (fun e => fst e < b + N) (filter is_set (d_pend st)) ->
  ds = [] /\ Forall (fun e => b + N <= fst e) (d_pend st) /\ filter is_set (d_pend st) = [].
Proof.
  intros I EP GE F2 DU.
  assert (ALL : Forall (fun e => b + N <= fst e) (d_pend st)).
  { destruct I as [_ _ _ _ _ _ Iso _ _ _ _ _ _]. rewrite EP in *. inversion Iso; subst. constructor; [cbn; lia|].
    eapply Forall_impl; [|eassumption]. unfold le_ev. cbn. intros; lia. }
  assert (NS : filter is_set (d_pend st) = []).
  { destruct (filter is_set (d_pend st)) as [|a r] eqn:FE; auto. exfalso.
    assert (H : In a (d_pend st)) by (apply (proj1 (filter_In is_set a (d_pend st))); rewrite FE; left; auto).
    rewrite Forall_forall in ALL. specialize (ALL a H). inversion DU; subst. lia. }
  rewrite NS in F2. inversion F2; subst. auto.
Qed.

Lemma drain_inv b : (N | b) -> forall fuel st d ds, inv b d st ->
  (length (due (b + N) (d_pend st)) <= fuel)%nat ->
  Forall2 set_is (filter is_set (d_pend st)) ds -> Forall (fun e => fst e < b + N) (filter is_set (d_pend st)) ->
  exists st1, drain vzero N fuel (b + N) st = Some (Ok st1) /\ inv b (last ds d) st1 /\
    Forall (fun e => b + N <= fst e) (d_pend st1) /\ filter is_set (d_pend st1) = [].
Proof.
  intros Nb fuel. induction fuel as [|fuel IH]; intros st d ds I L F2 DU.
  - destruct (d_pend st) as [|[ts e] l] eqn:EP.
    + exists st. cbn in F2. inversion F2; subst. unfold drain. rewrite EP. auto.
    + unfold drain. rewrite EP. destruct (Z.ltb_spec ts (b + N)) as [LT|GE].
      { exfalso. unfold due in L. cbn [filter fst] in L. replace (ts <? b + N) with true in L by lia. cbn in L. lia. }
      rewrite <- EP in F2, DU. destruct (none_due b d st ts e l ds) as (-> & A & B); auto. exists st. auto.
  - cbn [drain]. destruct (d_pend st) as [|[ts e] l] eqn:EP.
    + exists st. cbn in F2. inversion F2; subst. rewrite EP. auto.
    + destruct (Z.ltb_spec ts (b + N)) as [LT|GE].
      2:{ rewrite <- EP in F2, DU. destruct (none_due b d st ts e l ds) as (-> & A & B); auto. exists st. auto. }
      unfold due in L. cbn [filter fst] in L. replace (ts <? b + N) with true in L by lia. cbn [length] in L. fold (due (b + N) l) in L.
      cbn [filter] in F2, DU.
      destruct (event_inv b d st ts e l Nb I EP LT) as (st1 & -> & E1 & E2 & E3 & E4).
      { intros f ->. cbn [is_set snd] in F2. inversion F2 as [|? d' ? ? (g & G1 & G2 & G3)]; subst. cbn in G1. injection G1 as <-. eauto. }
      destruct e as [| | | |f]; cbn [is_set snd] in F2, DU.
      1,2,3,4: apply IH; [apply E2; discriminate|lia|rewrite E4; auto|rewrite E4; auto].
      inversion F2 as [|? d' ? ds' (g & G1 & G2 & G3) F3]; subst. cbn in G1. injection G1 as <-. inversion DU; subst.
      rewrite last_cons.
      apply IH; [eapply E1; eauto|lia|rewrite E4; auto|rewrite E4; auto].
Qed.

(** *** The signal code. *)
Definition is_input (b : Z) (v : list V) : Prop :=
  forall i w, nth_error v i = Some w -> w = sample vzero x (b + Z.of_nat i).

Lemma dsp_inv rf al b d st v : (N | b) -> 0 <= b -> inv b d st -> Forall (fun e => b + N <= fst e) (d_pend st) ->
  vec N v -> is_input b v -> (rf = false -> Z.max N d + N <= S) -> 0 <= d ->
  exists st1 out, dsp N rf al st v = Ok (st1, out) /\ inv (b + N) d st1 /\ d_pend st1 = d_pend st /\ vec N out /\
    exists D, whole N d D /\ forall i w, nth_error out i = Some w -> w = sample vzero x (b + Z.of_nat i - D).
Proof.
  intros Nb B0 I ALL VV IN RF D0. pose proof NP as NP. pose proof Ssmall as SS.
  destruct I as [Is Iz If I8 I12 I15 Iso Ia IW IR ID Ith Ic].
  destruct IW as (q & W1 & W2 & W3). destruct IR as (R & e & c & R1 & R2 & R3 & R4 & R5). destruct ID as (D & qd & D1 & D2 & D3).
  assert (WN : b + N <= q * S).
  { assert (H : In (q * S, WLoop) (d_pend st)) by (apply (proj1 (filter_In is_w _ (d_pend st))); rewrite W1; left; auto).
    rewrite Forall_forall in ALL. apply ALL in H. exact H. }
  assert (CN : b + N <= c).
  { assert (H : In (R, e) (d_pend st)) by (apply (proj1 (filter_In is_r _ (d_pend st))); rewrite R1; left; auto).
    rewrite Forall_forall in ALL. apply ALL in H. cbn in H. destruct Nb as [kb ->]. destruct R2 as [kc ->]. assert (kb < kc) by nia. nia. }
  pose proof Is as (Own & Div & Alloc). pose proof (own_alloc _ _ Own) as OA.
  assert (NW : (N | d_wh st)).
  { rewrite W3. apply Z.divide_sub_r; auto. apply Z.divide_sub_r; auto. apply Z.divide_mul_r; auto. }
  assert (NR : (N | r_head (d_r st))).
  { rewrite R5. apply Z.divide_sub_r; auto. apply Z.divide_sub_r; auto. }
  destruct (tabwrite_ok N HN al (d_t st) (d_wh st) v) as (t1 & EW & S1 & Z1 & TH & ML & G1 & G2); auto; try lia.
  assert (AL1 : t_allocated t1 = t_allocated (d_t st)). { destruct S1 as (_ & _ & ->). lia. }
  (* the table after the write *)
  assert (C1 : forall t, b + N - S <= t < b + N -> get t1 (t mod S) = Ok (sample vzero x t)).
  { intros t Ht. destruct (Z_lt_dec t b) as [Lt|Ge].
    - rewrite G2; [apply Ic; lia| |].
      + pose proof (Z.mod_pos_bound t S). lia.
      + intro X. pose proof (Z.mod_pos_bound t S). pose proof (Z.div_mod t S).
        assert (K : exists k, t = d_wh st + (t mod S - d_wh st) + k * S) by (exists (t / S); lia).
        destruct K as [k K]. rewrite W3 in K, X. assert (Q1 : t - b - (t mod S - (S - (q * S - b))) = (k - q + 1) * S) by lia.
        set (j := t mod S - (S - (q * S - b))) in *. assert (0 <= j < N) by lia.
        assert (KL : k - q + 1 < 0) by nia. assert (-1 < k - q + 1) by nia. lia.
    - assert (E : t mod S = d_wh st + (t - b)).
      { rewrite <- (mod_unique (d_wh st + (t - b)) (q - 1)) by lia. f_equal. lia. }
      rewrite E. unfold vec, zlen in VV. destruct (nth_error v (Z.to_nat (t - b))) as [w|] eqn:EV; [|apply nth_error_None in EV; lia].
      specialize (G1 _ _ EV). rewrite Z2Nat.id in G1 by lia. rewrite G1. f_equal. rewrite (IN _ _ EV). f_equal. lia. }
  (* reading from either table *)
  assert (RD : forall t, sound N t -> t_size t = S ->
     (forall i, 0 <= i < N -> get t (r_head (d_r st) + i) = Ok (sample vzero x (b + i - D))) ->
     exists out, tabread_f N al t (d_r st) = Ok (mkReader (r_head (d_r st) + N) (r_end (d_r st)) (r_forced (d_r st)) (r_playing (d_r st)), out) /\
       vec N out /\ forall i w, nth_error out i = Some w -> w = sample vzero x (b + Z.of_nat i - D)).
  { intros t St Zt H. destruct (tabread_ok N HN al t (d_r st)) as (out & EO & VO & HO); auto; try lia.
    { destruct St as (_ & _ & ->). lia. }
    exists out. split; auto. split; auto. intros i w Hw. specialize (HO _ _ Hw).
    assert (i < length out)%nat by (apply nth_error_Some; congruence). unfold vec, zlen in VO.
    rewrite H in HO by lia. congruence. }
  assert (CELL : forall i, 0 <= i < N -> (b + i - D) mod S = r_head (d_r st) + i).
  { intros i Hi. rewrite <- (mod_unique (r_head (d_r st) + i) (- qd)) by lia. f_equal. lia. }
  destruct D1 as [DD DR].
  assert (FINAL : forall r', r' = mkReader (r_head (d_r st) + N) (r_end (d_r st)) (r_forced (d_r st)) (r_playing (d_r st)) ->
     inv (b + N) d (with_r (with_wh (with_t st t1) (d_wh st + N)) r')).
  { intros r' ->. constructor; cbn [with_r with_wh with_t d_pend d_t d_wh d_r d_w8 d_w12 d_r15 r_forced r_head]; auto.
    - congruence.
    - exists q. split; auto. lia.
    - exists R, e, c. split; [auto|]. split; [auto|]. lia.
    - exists D, qd. split; [split; auto|]. split; auto. lia.
    - exists (1 - q). rewrite TH. lia. }
  unfold dsp. destruct rf.
  - destruct (RD (d_t st) Is Iz) as (out & EO & VO & HO).
    { intros i Hi. rewrite <- CELL by auto. apply Ic. lia. }
    rewrite EO. cbn [obind]. rewrite EW. cbn [obind]. do 2 eexists. split; [reflexivity|]. split; [apply FINAL; auto|].
    split; [reflexivity|]. split; [auto|]. exists D. split; [split; auto|auto].
  - destruct (RD t1 S1) as (out & EO & VO & HO).
    { congruence. } 
    { intros i Hi. rewrite <- CELL by auto. apply C1.
      assert (D <= S - N). { specialize (RF eq_refl). apply mult_le; [auto| |lia]. apply Z.divide_sub_r; auto. apply Z.divide_refl. } lia. }
    rewrite EW. cbn [obind]. rewrite EO. cbn [obind]. do 2 eexists. split; [reflexivity|]. split; [apply FINAL; auto|].
    split; [reflexivity|]. split; [auto|]. exists D. split; [split; auto|auto].
Qed.

(** *** Delay messages entering the queue. *)
Lemma sets_enter b dmax : dmax <= S -> forall sets ds from st d, b <= from -> inv b d st -> sets_ok N b from dmax sets ds ->
  Forall (fun e => fst e <= from) (filter is_set (d_pend st)) ->
  let st0 := fold_left (fun s p => sched s (fst p, RSet (snd p))) sets st in
  inv b d st0 /\ exists l, filter is_set (d_pend st0) = filter is_set (d_pend st) ++ l /\
    Forall2 set_is l ds /\ Forall (fun e => fst e < b + N) l.
Proof.
  intro DM. induction sets as [|[ts f] sets IH]; intros ds from st d BF I OK FS; cbn [fold_left].
  - destruct ds; [|destruct OK]. split; auto. exists []. rewrite app_nil_r. auto.
  - destruct ds as [|d1 ds]; [destruct OK|]. destruct OK as (T & IF & DR & OK). cbn [fst snd].
    assert (I1 : inv b d (sched st (ts, RSet f))).
    { destruct I as [Is Iz If I8 I12 I15 Iso Ia IW IR ID Ith Ic]. constructor; cbn [sched d_pend d_t d_wh d_r d_w8 d_w12 d_r15]; auto.
      - apply insert_sorted; auto.
      - apply insert_forall; auto. cbn. lia.
      - rewrite filter_insert_out by reflexivity. auto.
      - rewrite filter_insert_out by reflexivity. auto. }
    assert (FE : filter is_set (d_pend (sched st (ts, RSet f))) = filter is_set (d_pend st) ++ [(ts, RSet f)]).
    { cbn [sched d_pend]. apply filter_insert_last; auto. { apply I. } eapply Forall_impl; [|exact FS]. cbn. intros; lia. }
    destruct (IH ds ts (sched st (ts, RSet f)) d) as (I2 & l & L1 & L2 & L3); auto; try lia.
    { rewrite FE. apply Forall_app. split; [|repeat constructor; cbn; lia]. eapply Forall_impl; [|exact FS]. cbn. intros; lia. }
    split; auto. exists ((ts, RSet f) :: l). rewrite L1, FE, <- app_assoc. split; auto. split.
    + constructor; auto. exists f. split; auto. split; auto. lia.
    + constructor; auto. cbn. lia.
Qed.

Lemma last_range dmax b : forall sets ds from d, sets_ok N b from dmax sets ds -> 0 <= d <= dmax -> 0 <= last ds d <= dmax.
Proof.
  induction sets as [|[ts f] sets IH]; intros ds from d OK HD; destruct ds as [|d1 ds]; try destruct OK; auto.
  destruct H0 as (_ & DR & OK). rewrite last_cons. eapply IH; eauto.
Qed.

Fixpoint is_input_all (b : Z) (blocks : list (list (Z * f32) * list V)) : Prop :=
  match blocks with [] => True | (_, v) :: bs => is_input b v /\ is_input_all (b + N) bs end.

Lemma drun_inv rf al dmax : dmax <= S -> (rf = false -> Z.max N dmax + N <= S) ->
  forall blocks dss b d st, (N | b) -> 0 <= b -> 0 <= d <= dmax -> inv b d st -> filter is_set (d_pend st) = [] ->
  blocks_ok N b dmax blocks dss -> is_input_all b blocks ->
  exists k, forall fuel, (k <= fuel)%nat -> exists st1 outs, drun vzero N fuel rf al b st blocks = Some (Ok (st1, outs)) /\
    length outs = length dss /\
    forall j d1 out, nth_error (delay_at d dss) j = Some d1 -> nth_error outs j = Some out ->
      exists D, whole N d1 D /\ vec N out /\ forall i w, nth_error out i = Some w -> w = sample vzero x (b + N * Z.of_nat j + Z.of_nat i - D).
Proof.
  intros DM RF. induction blocks as [|[sets v] bs IH]; intros dss b d st Nb B0 HD I NS OK IN.
  - destruct dss; [|destruct OK]. exists O. intros fuel _. exists st, []. cbn. split; auto. split; auto. intros [|j] ? ? X; discriminate.
  - destruct dss as [|ds dss]; [destruct OK|]. destruct OK as (OS & VV & OK). destruct IN as [IN1 IN2]. pose proof NP as NP.
    destruct (sets_enter b dmax DM sets ds b st d) as (I0 & l & L1 & L2 & L3); auto; try lia. { rewrite NS. constructor. }
    rewrite NS in L1. cbn [app] in L1.
    set (st0 := fold_left (fun s p => sched s (fst p, RSet (snd p))) sets st) in *.
    set (k1 := length (due (b + N) (d_pend st0))).
    (* one sample run to learn the next state; it does not depend on the fuel *)
    assert (HL : 0 <= last ds d <= dmax) by (eapply last_range; eauto).
    destruct (drain_inv b Nb k1 st0 d ds) as (st1 & E1 & I1 & A1 & NS1); auto; try (rewrite L1; auto).
    destruct (dsp_inv rf al b (last ds d) st1 v) as (st2 & out & E2 & I2 & P2 & VO & D & WD & HO); auto; try lia.
    destruct (IH dss (b + N) (last ds d) st2) as (k2 & K2); auto; try lia. { apply Z.divide_add_r; auto. apply Z.divide_refl. } { rewrite P2. auto. }
    exists (Nat.max k1 k2). intros fuel HFu. cbn [drun]. unfold dblock. fold st0.
    assert (MONO : forall till k st r, drain vzero N k till st = Some (Ok r) -> forall k', (k <= k')%nat -> drain vzero N k' till st = Some (Ok r)).
    { clear. intros till. induction k as [|k IHk]; intros st r E k' LE.
      - destruct k'; auto. unfold drain in *. cbn [drain]. destruct (d_pend st) as [|[ts e] l]; auto. destruct (ts <? till); auto. discriminate.
      - destruct k' as [|k']; [lia|]. cbn [drain] in *. destruct (d_pend st) as [|[ts e] l]; auto. destruct (ts <? till); auto.
        destruct (handle vzero N (with_pend st l) ts e); auto. apply IHk; auto. lia. }
    rewrite (MONO _ k1 st0 st1 E1 fuel) by lia. rewrite E2.
    destruct (K2 fuel) as (st3 & outs & E3 & LO & HO3); [lia|]. rewrite E3.
    do 2 eexists. split; [reflexivity|]. split; [cbn; lia|]. intros [|j] d1 o; cbn [delay_at nth_error].
    + intros Q1 Q2. injection Q1 as <-. injection Q2 as <-. exists D. split; auto. split; auto. intros i w Hw. rewrite (HO i w Hw). f_equal. lia.
    + intros Q1 Q2. destruct (HO3 j d1 o Q1 Q2) as (D' & W' & V' & H'). exists D'. split; auto. split; auto.
      intros i w Hw. rewrite (H' i w Hw). f_equal. lia.
Qed.
End P.
