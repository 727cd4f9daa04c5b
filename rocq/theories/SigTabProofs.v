(** Proofs about signal table access. *)
From Verif Require Import TableModel TableSpec TableProofs SigTabModel SigTabSpec.
From Coq Require Import ZifyBool.

Section P.
Context {V : Type}.
Variable vzero : V.
Variable N : Z.
Hypothesis HN : simd N.
Notation NP := (N_pos N HN).

Lemma align_spec h : 0 <= h -> block_of N h (align_down N h).
Proof.
  intro H. pose proof NP as NP. unfold align_down, block_of.
  assert (E : Z.land h (Z.lnot (N - 1)) = N * (h / N)).
  { rewrite <- Z.ldiff_land. destruct HN as [ -> | [ -> | -> ]].
    - change (1 - 1) with (Z.ones 0). rewrite Z.ldiff_ones_r, Z.shiftr_div_pow2, Z.shiftl_mul_pow2 by lia.
      change (2 ^ 0) with 1. lia.
    - change (4 - 1) with (Z.ones 2). rewrite Z.ldiff_ones_r, Z.shiftr_div_pow2, Z.shiftl_mul_pow2 by lia.
      change (2 ^ 2) with 4. lia.
    - change (8 - 1) with (Z.ones 3). rewrite Z.ldiff_ones_r, Z.shiftr_div_pow2, Z.shiftl_mul_pow2 by lia.
      change (2 ^ 3) with 8. lia. }
  rewrite E. split; [exists (h / N); lia|].
  pose proof (Z.div_mod h N) as D. pose proof (Z.mod_pos_bound h N) as M. lia.
Qed.

Lemma all_init_spec (l : list (option V)) : (forall x, 0 <= x < zlen l -> exists v, cell l x = Some v) ->
  exists r, all_init l = Ok r /\ l = map Some r.
Proof.
  induction l as [|a l IH]; intro H; cbn [all_init]. { exists []. auto. }
  rewrite zlen_cons in H. pose proof (zlen_nonneg l).
  destruct (H 0) as [v Hv]; [lia|]. unfold cell in Hv. cbn in Hv. subst a.
  destruct IH as (r & -> & ->).
  { intros x Hx. destruct (H (1 + x)) as [w Hw]; [lia|]. exists w. unfold cell in *.
    replace (Z.to_nat (1 + x)) with (S (Z.to_nat x)) in Hw by lia. exact Hw. }
  exists (v :: r). auto.
Qed.

Lemma load_spec al (t : table V) h : owns N t -> 0 <= h -> h + N <= zlen (t_mem t) -> (al = true -> (N | h)) ->
  exists v, load N al t h = Ok v /\ vec N v /\ holds t h v.
Proof.
  intros O H0 H1 A. pose proof NP as NP. unfold load.
  replace (negb al || (h mod N =? 0)) with true.
  2:{ destruct al; cbn; auto. destruct (A eq_refl) as [q ->]. rewrite Z.mod_mul by lia. reflexivity. }
  destruct (read_spec (t_mem t) h N) as (d & E & L & C); [lia|lia|lia|]. rewrite E. cbn [obind].
  destruct (all_init_spec d) as (r & E2 & ->).
  { intros x Hx. rewrite C by lia. destruct (own_init _ _ O (h + x)) as [v Hv]; [lia|]. exists v. apply get_cell in Hv; [auto|lia]. }
  exists r. split; [auto|]. unfold vec. unfold zlen in L. rewrite map_length in L. split; [exact L|].
  intros i v Hv. assert (I : (i < length r)%nat) by (apply nth_error_Some; congruence).
  apply get_cell; [lia|]. rewrite <- C by lia. unfold cell.
  rewrite Nat2Z.id. rewrite (nth_indep _ None (Some v)) by (rewrite map_length; auto).
  change (Some v) with ((@Some V) v). rewrite map_nth. f_equal. apply nth_error_nth. auto.
Qed.

Lemma store_spec al (t : table V) h v : owns N t -> 0 <= h -> vec N v -> h + N <= zlen (t_mem t) -> (al = true -> (N | h)) ->
  exists t', store N al t h v = Ok t' /\ owns N t' /\ t_size t' = t_size t /\ t_length t' = t_length t /\
    t_allocated t' = t_allocated t /\ t_head t' = t_head t /\ zlen (t_mem t') = zlen (t_mem t) /\
    holds t' h v /\ (forall x, 0 <= x < zlen (t_mem t) -> ~ (h <= x < h + N) -> get t' x = get t x).
Proof.
  intros O H0 VV H1 A. pose proof NP as NP. unfold store.
  replace (negb al || (h mod N =? 0)) with true.
  2:{ destruct al; cbn; auto. destruct (A eq_refl) as [q ->]. rewrite Z.mod_mul by lia. reflexivity. }
  assert (LV : zlen (map Some v) = N) by (unfold zlen; rewrite map_length; exact VV).
  destruct (write_spec (t_mem t) h (map Some v)) as (c & E2 & L2 & C2); [lia|lia|]. rewrite E2. cbn [obind].
  rewrite LV in C2. eexists. split; [reflexivity|]. cbn [t_size t_length t_allocated t_head t_mem].
  set (t' := mkTable c _ _ _ _ _).
  assert (G1 : forall x, 0 <= x < zlen (t_mem t) -> ~ (h <= x < h + N) -> get t' x = get t x).
  { intros y Hy N1. destruct (own_init _ _ O y) as [w Hw]; [lia|]. rewrite Hw. apply get_cell; cbn [t_mem t']; [lia|].
    rewrite C2 by lia. replace (_ && _) with false by lia. apply get_cell in Hw; [auto|lia]. }
  assert (G2 : holds t' h v).
  { intros i w Hw. assert (I : (i < length v)%nat) by (apply nth_error_Some; congruence).
    unfold vec, zlen in VV. apply get_cell; cbn [t_mem t']; [lia|]. rewrite C2 by lia.
    replace (_ && _) with true by lia. unfold cell. replace (Z.to_nat (h + Z.of_nat i - h)) with i by lia.
    rewrite (nth_indep _ None (Some w)) by (rewrite map_length; auto). rewrite map_nth. f_equal. apply nth_error_nth. auto. }
  split.
  { constructor; cbn [t_heap t_size t_mem t_allocated t']; try (rewrite ?L2; apply O).
    rewrite L2. intros y Hy. destruct (Z_lt_dec y h); [rewrite G1 by lia; apply (own_init _ _ O); auto|].
    destruct (Z_lt_dec y (h + N)); [|rewrite G1 by lia; apply (own_init _ _ O); auto].
    destruct (nth_error v (Z.to_nat (y - h))) as [w|] eqn:W.
    - exists w. specialize (G2 _ _ W). replace (h + Z.of_nat (Z.to_nat (y - h))) with y in G2 by lia. exact G2.
    - exfalso. apply nth_error_None in W. unfold vec, zlen in VV. lia. }
  repeat (split; [solve [auto]|]). exact G1.
Qed.

Lemma sound_store (t t' : table V) : sound N t -> owns N t' -> t_size t' = t_size t -> t_allocated t' = t_allocated t -> sound (V:=V) N t'.
Proof. intros (A & B & C) O S1 S2. split; auto. rewrite S1, S2. auto. Qed.
Lemma owns_head (t : table V) h : owns N t -> owns N (with_head t h).
Proof. intros [A B C D E F]. constructor; auto. Qed.
Lemma get_head (t : table V) h x : get (with_head t h) x = get t x.
Proof. reflexivity. Qed.

Lemma sound_bound (t : table V) : sound N t -> 0 <= t_size t /\ t_size t + N <= zlen (t_mem t) /\ 4 * zlen (t_mem t) < 4294967296.
Proof. intros (O & _). pose proof (own_size _ _ O). pose proof (own_block _ _ O). pose proof (own_32bit _ _ O). lia. Qed.

Lemma tabwrite_ok al (t : table V) h v : sound N t -> 0 <= h -> vec N v -> h + N <= t_size t -> (al = true -> (N | h)) ->
  exists t', tabwrite_f N al t h v = Ok (t', h + N) /\ sound N t' /\ t_size t' = t_size t /\ t_head t' = h + N /\
    zlen (t_mem t') = zlen (t_mem t) /\
    holds t' h v /\ (forall x, 0 <= x < zlen (t_mem t) -> ~ (h <= x < h + N) -> get t' x = get t x).
Proof.
  intros S0 H0 VV H1 A. pose proof NP as NP. pose proof (sound_bound _ S0). unfold tabwrite_f.
  rewrite u32_id by lia. replace (h + N <=? t_size t) with true by lia.
  destruct (store_spec al t h v) as (t' & E & O' & S1 & _ & S2 & _ & ZL & G1 & G2); auto; try lia. { apply S0. }
  rewrite E. cbn [obind]. eexists. split; [reflexivity|]. cbn [t_size with_head t_head t_mem].
  split. { apply (sound_store t); auto. apply owns_head. auto. }
  split; [auto|]. split; [auto|]. split; [auto|]. split; [exact G1|exact G2].
Qed.

Lemma tabread_ok al (t : table V) r : sound N t -> 0 <= r_head r -> r_head r + N <= t_allocated t -> (al = true -> (N | r_head r)) ->
  exists v, tabread_f N al t r = Ok (mkReader (r_head r + N) (r_end r) (r_forced r) (r_playing r), v) /\ vec N v /\ holds t (r_head r) v.
Proof.
  intros S0 H0 H1 A. pose proof NP as NP. pose proof (sound_bound _ S0). destruct S0 as (O & D & AL).
  pose proof (own_alloc _ _ O) as OA. unfold tabread_f. rewrite u32_id by lia.
  replace (r_head r + N <=? t_allocated t) with true by lia.
  destruct (load_spec al t (r_head r)) as (v & -> & L & H2); auto; try lia. cbn [obind]. eauto.
Qed.

Lemma holds_unique (t : table V) h v w : zlen v = zlen w -> holds t h v -> holds t h w -> v = w.
Proof.
  revert h w. induction v as [|a v IH]; intros h [|b w] L H1 H2; unfold zlen in L; cbn [length] in L; try lia; auto.
  f_equal. { pose proof (H1 O a eq_refl). pose proof (H2 O b eq_refl). congruence. }
  apply (IH (h + 1)); [unfold zlen; lia| |].
  - intros i x Hx. specialize (H1 (S i) x Hx). rewrite <- H1. f_equal. lia.
  - intros i x Hx. specialize (H2 (S i) x Hx). rewrite <- H2. f_equal. lia.
Qed.

Lemma write_run_spec al bs : forall (t : table V) h, sound N t -> 0 <= h -> Forall (vec N) bs ->
  h + N * zlen bs <= t_size t -> (al = true -> (N | h)) ->
  exists t', write_run N al t h bs = Ok (t', h + N * zlen bs) /\ sound N t' /\ t_size t' = t_size t /\
    (bs <> [] -> t_head t' = h + N * zlen bs) /\
    zlen (t_mem t') = zlen (t_mem t) /\ holds t' h (concat bs) /\
    (forall x, 0 <= x < zlen (t_mem t) -> ~ (h <= x < h + N * zlen bs) -> get t' x = get t x).
Proof.
  pose proof NP as NP. induction bs as [|b bs IH]; intros t h S0 H0 F H1 A; cbn [write_run].
  - exists t. rewrite zlen_nil. replace (h + N * 0) with h by lia. repeat (split; [solve [auto]|]). split; [congruence|].
    split; auto. split; auto. intros [|i] v; discriminate.
  - inversion F as [|? ? Fb Fs]; subst. pose proof (zlen_nonneg bs). pose proof (sound_bound _ S0). rewrite zlen_cons in *.
    destruct (tabwrite_ok al t h b) as (t1 & E1 & S1 & Z1 & TH & M1 & G1 & G2); auto; try lia. rewrite E1. cbn [obind].
    destruct (IH t1 (h + N)) as (t2 & E2 & S2 & Z2 & TH2 & M2 & G3 & G4); auto; try lia.
    { intro a. apply Z.divide_add_r; auto. apply Z.divide_refl. }
    exists t2. rewrite E2. split; [f_equal; f_equal; lia|]. split; [auto|]. split; [lia|]. split.
    { intros _. destruct bs as [|b2 bs]; [|rewrite TH2 by discriminate; lia].
      cbn [write_run] in E2. injection E2 as <-. rewrite TH, zlen_nil. lia. }
    split; [lia|]. split.
    + cbn [concat]. intros i v Hv. unfold vec, zlen in Fb. destruct (Nat.lt_ge_cases i (length b)) as [I|I].
      * rewrite nth_error_app1 in Hv by auto. rewrite G4 by lia. apply G1. auto.
      * rewrite nth_error_app2 in Hv by auto. specialize (G3 _ _ Hv). rewrite <- G3. f_equal. lia.
    + intros x Hx NX. rewrite G4 by lia. apply G2; lia.
Qed.

Lemma holds_app (t : table V) h a b : holds t h (a ++ b) <-> holds t h a /\ holds t (h + zlen a) b.
Proof.
  split.
  - intro H. split; intros i v Hv.
    + apply H. rewrite nth_error_app1; auto. apply nth_error_Some. congruence.
    + specialize (H (length a + i)%nat v). rewrite nth_error_app2 in H by lia.
      replace (length a + i - length a)%nat with i in H by lia. specialize (H Hv). rewrite <- H. f_equal. unfold zlen. lia.
  - intros [H1 H2] i v Hv. destruct (Nat.lt_ge_cases i (length a)) as [I|I].
    + rewrite nth_error_app1 in Hv by auto. auto.
    + rewrite nth_error_app2 in Hv by auto. specialize (H2 _ _ Hv). rewrite <- H2. f_equal. unfold zlen. lia.
Qed.

Lemma read_run_spec al bs : forall (t : table V) r, sound N t -> 0 <= r_head r -> Forall (vec N) bs ->
  r_head r + N * zlen bs <= t_allocated t -> (al = true -> (N | r_head r)) -> holds t (r_head r) (concat bs) ->
  exists r', read_run N al t r (length bs) = Ok (r', bs) /\ r_head r' = r_head r + N * zlen bs.
Proof.
  pose proof NP as NP. induction bs as [|b bs IH]; intros t r S0 H0 F H1 A Hd; cbn [read_run length].
  - exists r. rewrite zlen_nil. split; auto. lia.
  - inversion F as [|? ? Fb Fs]; subst. pose proof (zlen_nonneg bs). rewrite zlen_cons in *.
    destruct (tabread_ok al t r) as (v & E & L & Hv); auto; try lia. rewrite E. cbn [obind].
    cbn [concat] in Hd. apply holds_app in Hd. destruct Hd as [Hd1 Hd2]. unfold vec in *.
    assert (v = b) as -> by (apply (holds_unique t (r_head r)); auto; congruence).
    destruct (IH t (mkReader (r_head r + N) (r_end r) (r_forced r) (r_playing r))) as (r' & -> & R); cbn [r_head]; auto; try lia.
    { intro a. apply Z.divide_add_r; auto. apply Z.divide_refl. }
    { rewrite Fb in Hd2. exact Hd2. }
    cbn [obind]. exists r'. split; auto. cbn [r_head] in R. lia.
Qed.

(** *** Stoppable reader *)
Lemma stop_block al (t : table V) r : sound N t -> 0 <= r_head r < 4294967296 -> (N | r_head r) ->
  exists r' v b, tabread_stoppable_f vzero N al t r = Ok (r', v, b) /\ r_forced r' = r_forced r /\ r_end r' = r_end r /\
    (if r_playing r && (r_head r <? t_allocated t) && (r_head r <? r_end r)
     then r_head r' = r_head r + N /\ r_playing r' = true /\ vec N v /\ holds t (r_head r) v /\ b = false
     else r_head r' = r_head r /\ r_playing r' = false /\ v = silence vzero N /\
          b = r_playing r && (r_head r <? t_allocated t)).
Proof.
  intros S0 H0 D. pose proof NP as NP. pose proof (sound_bound _ S0) as B. destruct S0 as (O & DS & AL).
  pose proof (own_alloc _ _ O) as OA. unfold tabread_stoppable_f. destruct (r_playing r); cbn [andb negb].
  - destruct (Z.leb_spec (t_allocated t) (r_head r)) as [A|A]; cbn [negb].
    + replace (r_head r <? t_allocated t) with false by lia. cbn [andb]. do 3 eexists. split; [reflexivity|]. cbn. repeat split; auto.
    + replace (r_head r <? t_allocated t) with true by lia. cbn [andb]. destruct (r_head r <? r_end r) eqn:E.
      * assert (DA : (N | t_allocated t)) by (rewrite AL; apply Z.divide_add_r; auto; apply Z.divide_refl).
        assert (r_head r + N <= t_allocated t). { destruct D as [q1 D], DA as [q2 DA]. assert (q1 < q2) by nia. nia. }
        destruct (load_spec al t (r_head r)) as (v & -> & L & Hv); auto; try lia. cbn [obind].
        do 3 eexists. split; [reflexivity|]. cbn. rewrite u32_id by lia. repeat split; auto.
      * do 3 eexists. split; [reflexivity|]. cbn. repeat split; auto.
  - do 3 eexists. split; [reflexivity|]. cbn. repeat split; auto.
Qed.

Definition idle_out := (silence vzero N, false).
Lemma idle_run al k : forall (t : table V) r, r_playing r = false ->
  exists r', play_run vzero N al t r k = Ok (r', repeat idle_out k) /\ r_playing r' = false.
Proof.
  induction k as [|k IH]; intros t r P; cbn [play_run repeat]; [eauto|].
  unfold tabread_stoppable_f. rewrite P. cbn [andb negb obind].
  destruct (IH t (mkReader (r_head r) (r_end r) (r_forced r) false)) as (r' & -> & P'); auto. cbn [obind]. eauto.
Qed.

(** What is heard after the last sample: silence, with a bang in the first block. *)
Definition tail (extra : nat) : list (list V * bool) :=
  match extra with O => [] | S k => (silence vzero N, true) :: repeat idle_out k end.
Lemma play_run_spec al bs : forall (t : table V) r extra, sound N t -> 0 <= r_head r < 4294967296 -> (N | r_head r) ->
  r_playing r = true -> Forall (vec N) bs -> holds t (r_head r) (concat bs) ->
  r_head r + N * zlen bs < t_allocated t ->
  r_end r <= r_head r + N * zlen bs -> (bs <> [] -> r_head r + N * (zlen bs - 1) < r_end r) ->
  exists r', play_run vzero N al t r (length bs + extra) = Ok (r', map (fun b => (b, false)) bs ++ tail extra).
Proof.
  pose proof NP as NP. induction bs as [|b bs IH]; intros t r extra S0 H0 D P F Hd LA E1 E2.
  - cbn [length Nat.add map app]. rewrite zlen_nil in *. destruct extra as [|k]; [cbn; eauto|]. cbn [play_run].
    destruct (stop_block al t r) as (r' & v & bb & -> & F1 & F2 & C); auto. cbn [obind].
    replace (r_head r <? r_end r) with false in C by lia. rewrite andb_false_r in C.
    destruct C as (C1 & C2 & -> & ->). rewrite P. replace (r_head r <? t_allocated t) with true by lia.
    destruct (idle_run al k t r' C2) as (r2 & -> & P2). cbn [obind andb tail]. eauto.
  - inversion F as [|? ? Fb Fs]; subst. pose proof (zlen_nonneg bs). rewrite zlen_cons in *.
    pose proof (sound_bound _ S0) as B.
    assert (AL : t_allocated t = t_size t + N) by apply S0.
    cbn [length Nat.add play_run].
    destruct (stop_block al t r) as (r' & v & bb & -> & F1 & F2 & C); auto. cbn [obind].
    assert (E3 : r_head r + N * (1 + zlen bs - 1) < r_end r) by (apply E2; discriminate). clear E2.
    assert (r_head r < r_end r) by nia.
    rewrite P in C. replace (r_head r <? t_allocated t) with true in C by nia. replace (r_head r <? r_end r) with true in C by lia.
    cbn [andb] in C. destruct C as (C1 & C2 & C3 & C4 & ->).
    cbn [concat] in Hd. apply holds_app in Hd. destruct Hd as [Hd1 Hd2]. unfold vec in *.
    assert (v = b) as -> by (apply (holds_unique t (r_head r)); auto; congruence).
    destruct (IH t r' extra) as (r2 & -> ); auto; try lia.
    { rewrite C1. apply Z.divide_add_r; auto. apply Z.divide_refl. }
    { rewrite C1. rewrite Fb in Hd2. exact Hd2. }
    cbn [obind map app]. eauto.
Qed.

(** Cutting a run of cells into vectors. *)
Lemma cells_exist (t : table V) h n : owns N t -> 0 <= h -> h + N * Z.of_nat n <= zlen (t_mem t) ->
  exists bs, length bs = n /\ Forall (vec N) bs /\ holds t h (concat bs).
Proof.
  pose proof NP as NP. intros O. revert h. induction n as [|n IH]; intros h H0 H1.
  - exists []. split; auto. split; auto. intros [|i] v; discriminate.
  - destruct (load_spec false t h) as (v & _ & L & Hv); [auto|lia|lia|discriminate|].
    destruct (IH (h + N)) as (bs & L2 & F & H2); [lia|lia|].
    exists (v :: bs). split; [cbn; lia|]. split; [constructor; auto|]. cbn [concat]. apply holds_app. split; auto.
    unfold vec in L. rewrite L. auto.
Qed.

(** Histories. *)
Definition pinv (al : bool) (p : player V) : Prop :=
  Forall (sound N) (p_tables p) /\ (p_cur p < length (p_tables p))%nat /\
  0 <= r_head (p_reader p) < 4294967296 /\ (N | r_head (p_reader p)) /\ r_forced (p_reader p) = true /\
  Forall (fun o => vec N (fst o)) (p_out p).
Lemma vec_silence : vec N (silence vzero N).
Proof. unfold vec, silence, zlen. rewrite repeat_length. pose proof NP. lia. Qed.
Lemma play_step_ok al p o k : pinv al p -> length (p_tables p) = k -> play_ok N k o ->
  exists p', play_step vzero N al p o = Ok p' /\ pinv al p' /\ length (p_tables p') = k.
Proof.
  pose proof NP as NP. intros (T & C & H & D & FA & OUT) LK OK. unfold play_step.
  set (t := nth (p_cur p) (p_tables p) _).
  assert (S0 : sound N t). { rewrite Forall_forall in T. apply T. apply nth_In. auto. }
  pose proof (sound_bound _ S0) as B.
  destruct o as [m|i|m| |ts]; cbn [play_ok] in OK.
  - destruct m as [|f| | |]; cbn [sTabread_onMessage0 num_ok] in *.
    + cbn [obind]. eexists. split; [reflexivity|]. split; auto. repeat (split; cbn; auto); try lia. exists 0. lia.
    + destruct OK as [a Ha]. rewrite Ha. cbn [obind]. eexists. split; [reflexivity|]. split; auto. rewrite FA.
      assert (RA : 0 <= a < 4294967296).
      { unfold to_u32 in Ha. destruct (BinarySingleNaN.is_finite (fabs f)); [|discriminate].
        destruct ((0 <=? BinarySingleNaN.Btrunc (fabs f)) && (BinarySingleNaN.Btrunc (fabs f) <? 4294967296)) eqn:Q; [|discriminate].
        injection Ha as <-. lia. }
      set (h := if fltb f fzero then _ else _).
      assert (0 <= h < 4294967296). { unfold h. destruct (fltb f fzero); [apply u32_range|lia]. }
      destruct (align_spec h) as [A1 A2]; [lia|].
      assert (0 <= align_down N h). { destruct A1 as [q A1]. assert (-1 < q) by nia. nia. }
      repeat (split; cbn; auto); lia.
    + cbn [obind]. eexists. split; [reflexivity|]. split; auto. repeat (split; cbn; auto); try lia. exists 0. lia.
    + cbn [obind]. eexists. split; [reflexivity|]. split; auto. repeat (split; cbn; auto); lia.
    + cbn [obind]. eexists. split; [reflexivity|]. split; auto. repeat (split; cbn; auto); lia.
  - destruct (nth_error (p_tables p) i) as [t2|] eqn:E; [|apply nth_error_None in E; lia].
    cbn [sTabread_onMessage1 obind]. eexists. split; [reflexivity|]. split; auto.
    repeat (split; cbn; auto); try lia. exists 0. lia.
  - destruct m as [|f| | |]; cbn [sTabread_onMessage2 num_ok] in *.
    2:{ destruct OK as [a Ha]. rewrite Ha. cbn [obind]. eexists. split; [reflexivity|]. split; auto. repeat (split; cbn; auto); lia. }
    all: cbn [obind]; eexists; split; [reflexivity|]; split; auto; repeat (split; cbn; auto); lia.
  - destruct (stop_block al t (p_reader p)) as (r' & v & b & -> & F1 & F2 & C2); auto. cbn [obind].
    eexists. split; [reflexivity|]. split; auto. cbn [p_tables p_cur p_reader p_out].
    assert (AL : t_allocated t = t_size t + N) by apply S0.
    repeat split; cbn; auto; try congruence.
    + destruct (r_playing (p_reader p) && (r_head (p_reader p) <? t_allocated t) && (r_head (p_reader p) <? r_end (p_reader p))) eqn:Q; lia.
    + destruct (r_playing (p_reader p) && (r_head (p_reader p) <? t_allocated t) && (r_head (p_reader p) <? r_end (p_reader p))) eqn:Q; lia.
    + destruct (r_playing (p_reader p) && (r_head (p_reader p) <? t_allocated t) && (r_head (p_reader p) <? r_end (p_reader p))) eqn:Q.
      * destruct C2 as [-> _]. apply Z.divide_add_r; auto. apply Z.divide_refl.
      * destruct C2 as [-> _]. auto.
    + apply Forall_app. split; auto. constructor; auto. cbn.
      destruct (r_playing (p_reader p) && (r_head (p_reader p) <? t_allocated t) && (r_head (p_reader p) <? r_end (p_reader p))) eqn:Q.
      * apply C2. * destruct C2 as (_ & _ & -> & _). apply vec_silence.
  - destruct OK as [L2 F]. eexists. split; [reflexivity|]. split; auto. repeat (split; cbn; auto); lia.
Qed.
Lemma play_history_ok al l : forall p k, pinv al p -> length (p_tables p) = k -> Forall (play_ok N k) l ->
  exists p', play_history vzero N al p l = Ok p' /\ pinv al p'.
Proof.
  induction l as [|o l IH]; intros p k I L F; cbn [play_history]; [eauto|]. inversion F; subst.
  destruct (play_step_ok al p o _ I eq_refl) as (p1 & -> & I1 & L1); auto. cbn [obind]. eapply IH; eauto.
Qed.

(** Random access. *)
Lemma lanes_spec (t : table V) is : (forall i, In i is -> exists v, get t i = Ok v) ->
  exists vs, tabread_lanes t is = Ok vs /\ Forall2 (fun i v => get t i = Ok v) is vs.
Proof.
  induction is as [|i is IH]; intro H; cbn [tabread_lanes]; [eauto|].
  destruct (H i) as [v E]; [left; auto|]. rewrite E. cbn [obind].
  destruct IH as (vs & -> & F). { intros j J. apply H. right; auto. } cbn [obind]. eauto.
Qed.
Lemma write_lanes_spec (ivs : list (Z * V)) : forall t : table V, owns N t -> Forall (fun p => 0 <= fst p < zlen (t_mem t)) ivs ->
  exists t', tabwrite_lanes t ivs = Ok t' /\ owns N t' /\ t_size t' = t_size t /\ zlen (t_mem t') = zlen (t_mem t) /\
    (forall x, 0 <= x < zlen (t_mem t) -> ~ In x (map fst ivs) -> get t' x = get t x) /\
    (forall before i v after, ivs = before ++ (i, v) :: after -> ~ In i (map fst after) -> get t' i = Ok v).
Proof.
  induction ivs as [|[i v] l IH]; intros t O F; cbn [tabwrite_lanes].
  - exists t. repeat (split; [solve [auto]|]). intros b i v a E. destruct b; discriminate.
  - inversion F as [|? ? F1 F2]; subst. cbn [fst] in F1.
    destruct (put_spec N t i v O F1) as (t1 & -> & O1 & S1 & G1 & G2 & L1). cbn [obind].
    destruct (IH t1 O1) as (t2 & -> & O2 & S2 & L2 & G3 & G4). { rewrite L1. auto. }
    exists t2. split; [auto|]. split; [auto|]. split; [congruence|]. split; [congruence|]. split.
    + intros x Hx NI. cbn [map fst In] in NI. rewrite G3; [apply G2; auto| rewrite L1; auto|tauto].
    + intros b j w a E NI. destruct b as [|q b].
      * cbn [app] in E. injection E as <- <- <-. rewrite G3; [auto|rewrite L1; auto|auto].
      * cbn [app] in E. injection E as <- ->. eapply G4; eauto.
Qed.
End P.
