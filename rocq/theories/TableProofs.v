(** Proofs about tables. *)
From Verif Require Import TableModel TableSpec.
From Coq Require Import ZifyBool.

Section P.
Context {V : Type}.
Variable vzero : V.
Variable N : Z.
Hypothesis HN : simd N.

Definition cell (m : list (option V)) (x : Z) : option V := nth (Z.to_nat x) m None.

Lemma N_pos : 1 <= N <= 8. Proof. destruct HN as [ -> | [ -> | -> ]]; lia. Qed.

Lemma pad_spec len : 0 <= len -> len + N <= 4294967296 -> is_padded N len (pad N len).
Proof.
  intros H0 H1. unfold pad, is_padded. pose proof N_pos as NP. rewrite u32_id by lia.
  assert (E : Z.land (len + (N - 1)) (Z.lnot (N - 1)) = N * ((len + (N - 1)) / N)).
  { change (Z.land ?a (Z.lnot ?b)) with (Z.land a (Z.lnot b)). rewrite <- Z.ldiff_land.
    destruct HN as [ -> | [ -> | -> ]].
    - change (1 - 1) with (Z.ones 0). rewrite Z.ldiff_ones_r, Z.shiftr_div_pow2, Z.shiftl_mul_pow2 by lia.
      change (2 ^ 0) with 1. lia.
    - change (4 - 1) with (Z.ones 2). rewrite Z.ldiff_ones_r, Z.shiftr_div_pow2, Z.shiftl_mul_pow2 by lia.
      change (2 ^ 2) with 4. lia.
    - change (8 - 1) with (Z.ones 3). rewrite Z.ldiff_ones_r, Z.shiftr_div_pow2, Z.shiftl_mul_pow2 by lia.
      change (2 ^ 3) with 8. lia. }
  rewrite E. split; [exists ((len + (N - 1)) / N); lia|].
  pose proof (Z.div_mod (len + (N - 1)) N) as D. pose proof (Z.mod_pos_bound (len + (N - 1)) N) as M. lia.
Qed.

Lemma zlen_firstn {A} (l : list A) n : 0 <= n <= zlen l -> zlen (firstn (Z.to_nat n) l) = n.
Proof. unfold zlen. intro H. rewrite firstn_length. lia. Qed.
Lemma nth_firstn {A} (l : list A) d n i : (i < n)%nat -> nth i (firstn n l) d = nth i l d.
Proof.
  revert n i. induction l as [|a l IH]; intros [|n] [|i] H; cbn; auto; try lia. apply IH. lia.
Qed.
Lemma nth_skipn {A} (l : list A) d n i : nth i (skipn n l) d = nth (n + i) l d.
Proof. revert n. induction l as [|a l IH]; intros [|n]; cbn; auto. destruct i; auto. Qed.
Lemma nth_repeat {A} (a d : A) n i : (i < n)%nat -> nth i (repeat a n) d = a.
Proof. revert i. induction n as [|n IH]; intros [|i] H; cbn; auto; try lia. apply IH. lia. Qed.

Lemma cell_splice (m d : list (option V)) from x : 0 <= from -> from + zlen d <= zlen m -> 0 <= x ->
  cell (firstn (Z.to_nat from) m ++ d ++ skipn (Z.to_nat (from + zlen d)) m) x =
  if (from <=? x) && (x <? from + zlen d) then cell d (x - from) else cell m x.
Proof.
  intros H1 H2 H3. unfold cell, zlen in *.
  assert (L : length (firstn (Z.to_nat from) m) = Z.to_nat from) by (rewrite firstn_length; lia).
  destruct (Z.leb_spec from x) as [A|A]; cbn [andb].
  - rewrite app_nth2 by lia. rewrite L. destruct (Z.ltb_spec x (from + Z.of_nat (length d))) as [B|B].
    + rewrite app_nth1 by lia. f_equal. lia.
    + rewrite app_nth2 by lia. rewrite nth_skipn. f_equal. lia.
  - rewrite app_nth1 by lia. apply nth_firstn. lia.
Qed.
Lemma len_splice (m d : list (option V)) from : 0 <= from -> from + zlen d <= zlen m ->
  zlen (firstn (Z.to_nat from) m ++ d ++ skipn (Z.to_nat (from + zlen d)) m) = zlen m.
Proof.
  intros H1 H2. unfold zlen in *. rewrite !app_length, firstn_length, skipn_length. lia.
Qed.

Lemma clear_spec m from n : 0 <= from -> 0 <= n -> from + n <= zlen m ->
  exists m', clear_cells vzero m from n = Ok m' /\ zlen m' = zlen m /\
   forall x, 0 <= x -> cell m' x = if (from <=? x) && (x <? from + n) then Some vzero else cell m x.
Proof.
  intros H1 H2 H3. unfold clear_cells.
  replace ((0 <=? from) && (0 <=? n) && (from + n <=? zlen m)) with true by lia.
  set (d := repeat (Some vzero) (Z.to_nat n)).
  assert (L : zlen d = n) by (unfold zlen, d; rewrite repeat_length; lia).
  assert (E : Z.to_nat (from + n) = Z.to_nat (from + zlen d)) by (rewrite L; auto). rewrite E. eexists. split; [reflexivity|]. split; [apply len_splice; lia|].
  intros x Hx. rewrite cell_splice by lia. rewrite L.
  destruct (Z.leb_spec from x), (Z.ltb_spec x (from + n)); cbn [andb]; auto.
  unfold cell, d. apply nth_repeat. lia.
Qed.
Lemma write_spec m from d : 0 <= from -> from + zlen d <= zlen m ->
  exists m', write_cells m from d = Ok m' /\ zlen m' = zlen m /\
   forall x, 0 <= x -> cell m' x = if (from <=? x) && (x <? from + zlen d) then cell d (x - from) else cell m x.
Proof.
  intros H1 H2. unfold write_cells. replace ((0 <=? from) && (from + zlen d <=? zlen m)) with true by lia.
  eexists. split; [reflexivity|]. split; [apply len_splice; lia|]. intros x Hx. apply cell_splice; lia.
Qed.
Lemma read_spec (m : list (option V)) from n : 0 <= from -> 0 <= n -> from + n <= zlen m ->
  exists d, read_cells m from n = Ok d /\ zlen d = n /\ forall x, 0 <= x < n -> cell d x = cell m (from + x).
Proof.
  intros H1 H2 H3. unfold read_cells.
  replace ((0 <=? from) && (0 <=? n) && (from + n <=? zlen m)) with true by lia.
  eexists. split; [reflexivity|]. unfold zlen in *. split.
  - rewrite firstn_length, skipn_length. lia.
  - intros x Hx. unfold cell. rewrite nth_firstn, nth_skipn by lia. f_equal. lia.
Qed.
Lemma realloc_spec (m : list (option V)) n : 0 <= n ->
  zlen (realloc_block m n) = n /\
  forall x, 0 <= x < n -> x < zlen m -> cell (realloc_block m n) x = cell m x.
Proof.
  intro H. unfold realloc_block, zlen. split.
  - rewrite app_length, firstn_length, repeat_length. lia.
  - intros x H1 H2. unfold cell. rewrite app_nth1 by (rewrite firstn_length; lia). apply nth_firstn. lia.
Qed.
Lemma fresh_len n : 0 <= n -> zlen (@fresh_block V n) = n.
Proof. intro H. unfold fresh_block, zlen. rewrite repeat_length. lia. Qed.

Lemma get_cell (t : table V) x v : 0 <= x < zlen (t_mem t) -> (get t x = Ok v <-> cell (t_mem t) x = Some v).
Proof.
  intro H. unfold get, cell. replace ((0 <=? x) && (x <? zlen (t_mem t))) with true by lia.
  destruct (nth (Z.to_nat x) (t_mem t) None); split; congruence.
Qed.

Lemma init_owns len : 0 <= len -> 4 * (len + 2 * N) < 4294967296 ->
  exists t, hTable_init vzero N len = Ok t /\ owns N t /\ t_length t = len /\ is_padded N len (t_size t) /\
    forall x, 0 <= x < t_size t -> get t x = Ok vzero.
Proof.
  intros H0 H1. pose proof N_pos as NP. unfold hTable_init, int_max.
  replace ((0 <=? len) && (len + (N - 1) <=? 2147483647)) with true by lia.
  pose proof (pad_spec len) as P. destruct P as [P1 P2]; [lia|lia|].
  rewrite u32_id by lia. set (s := pad N len) in *.
  assert (L := fresh_len (s + N) ltac:(lia)).
  destruct (clear_spec (fresh_block (s + N)) 0 (s + N)) as (m & E & Lm & C); [lia|lia|lia|].
  rewrite E. cbn [obind]. eexists. split; [reflexivity|]. rewrite L in Lm.
  assert (G : forall x, 0 <= x < s + N -> get (mkTable m true len s (s + N) 0) x = Ok vzero).
  { intros x Hx. apply get_cell; cbn [t_mem]; [lia|]. rewrite C by lia.
    replace ((0 <=? x) && (x <? 0 + (s + N))) with true by lia. reflexivity. }
  split; [|split; [reflexivity|split; [split; assumption|intros x Hx; apply G; cbn [t_size] in Hx; lia]]].
  constructor; cbn [t_heap t_size t_mem t_allocated]; try lia; auto.
  intros x Hx. exists vzero. apply G. lia.
Qed.

(** The central fact: resizing. *)
Lemma resize_spec al (t : table V) n : owns N t -> 0 <= n -> 4 * (n + 2 * N) < 4294967296 ->
  exists t', hTable_resize vzero N al t n = Ok t' /\ owns N t' /\ is_padded N n (t_size t') /\
    (t_size t' = t_size t -> t' = t) /\
    (t_size t' <> t_size t -> t_length t' = n) /\
    (forall x, 0 <= x < t_size t -> x < t_size t' -> get t' x = get t x) /\
    (forall x, t_size t <= x < t_size t' -> get t' x = Ok vzero).
Proof.
  intros O H0 H1. pose proof N_pos as NP. unfold hTable_resize.
  pose proof (pad_spec n) as P. destruct P as [P1 P2]; [lia|lia|]. set (s := pad N n) in *.
  destruct (Z.eqb_spec s (t_size t)) as [E|E].
  { exists t. rewrite <- E. split; [reflexivity|]. split; [exact O|]. split; [split; assumption|].
    split; [auto|]. split; [tauto|]. split; [auto|]. intros; lia. }
  rewrite (own_heap _ _ O). cbn [negb]. pose proof (own_size _ _ O). pose proof (own_block _ _ O). pose proof (own_32bit _ _ O).
  rewrite !(u32_id (s + N)), !(u32_id ((s + N) * 4)), !(u32_id (t_size t * 4)) by lia.
  rewrite !Z.div_mul by lia. replace (((s + N) * 4 - t_size t * 4) / 4) with (s + N - t_size t)
    by (rewrite <- Z.mul_sub_distr_r, Z.div_mul; lia).
  destruct (realloc_spec (t_mem t) (s + N)) as [RL RC]; [lia|]. set (b := realloc_block (t_mem t) (s + N)) in *.
  assert (OLD : forall x, 0 <= x < t_size t + N -> exists v, cell (t_mem t) x = Some v).
  { intros x Hx. destruct (own_init _ _ O x) as [v Hv]; [lia|]. exists v. apply get_cell in Hv; [auto|lia]. }
  assert (K : exists m, (if al
     then if t_size t <? s then clear_cells vzero b (t_size t) (s + N - t_size t) else Ok b
     else if t_size t * 4 <? (s + N) * 4
       then let! d := read_cells b 0 (t_size t) in let! c1 := write_cells (fresh_block (s + N)) 0 d in
            clear_cells vzero c1 (t_size t) (s + N - t_size t)
       else let! d := read_cells b 0 (s + N) in write_cells (fresh_block (s + N)) 0 d) = Ok m /\ zlen m = s + N
     /\ (forall x, 0 <= x < t_size t -> x < s -> cell m x = cell (t_mem t) x)
     /\ (forall x, t_size t <= x < s -> cell m x = Some vzero)
     /\ (forall x, 0 <= x < s + N -> exists v, cell m x = Some v)).
  { destruct al.
    - destruct (Z.ltb_spec (t_size t) s).
      + destruct (clear_spec b (t_size t) (s + N - t_size t)) as (m & E1 & L1 & C1); [lia|lia|lia|].
        exists m. split; [exact E1|]. split; [lia|]. split; [|split].
        * intros x Hx1 Hx2. rewrite C1 by lia. replace (_ && _) with false by lia. apply RC; lia.
        * intros x Hx. rewrite C1 by lia. replace (_ && _) with true by lia. auto.
        * intros x Hx. rewrite C1 by lia. destruct (_ && _) eqn:B; [eauto|]. rewrite RC by lia. apply OLD. lia.
      + exists b. split; [reflexivity|]. split; [exact RL|]. split; [intros; apply RC; lia|].
        split; [intros; lia|]. intros x Hx. rewrite RC by lia. apply OLD. lia.
    - assert (FL := fresh_len (s + N) ltac:(lia)).
      destruct (Z.ltb_spec (t_size t * 4) ((s + N) * 4)).
      + destruct (read_spec b 0 (t_size t)) as (d & E1 & L1 & C1); [lia|lia|lia|]. rewrite E1. cbn [obind].
        destruct (write_spec (fresh_block (s + N)) 0 d) as (c & E2 & L2 & C2); [lia|lia|]. rewrite E2. cbn [obind].
        destruct (clear_spec c (t_size t) (s + N - t_size t)) as (m & E3 & L3 & C3); [lia|lia|lia|].
        exists m. split; [exact E3|]. split; [lia|]. rewrite L1 in C2. split; [|split].
        * intros x Hx1 Hx2. rewrite C3 by lia. replace (_ && _) with false by lia.
          rewrite C2 by lia. replace (_ && _) with true by lia. rewrite C1 by lia. rewrite RC by lia. f_equal. lia.
        * intros x Hx. rewrite C3 by lia. replace (_ && _) with true by lia. auto.
        * intros x Hx. rewrite C3 by lia. destruct (_ && _) eqn:B; [eauto|].
          rewrite C2 by lia. replace (_ && _) with true by lia. rewrite C1 by lia. rewrite RC by lia. apply OLD. lia.
      + destruct (read_spec b 0 (s + N)) as (d & E1 & L1 & C1); [lia|lia|lia|]. rewrite E1. cbn [obind].
        destruct (write_spec (fresh_block (s + N)) 0 d) as (c & E2 & L2 & C2); [lia|lia|].
        exists c. split; [exact E2|]. split; [lia|]. rewrite L1 in C2.
        assert (C4 : forall x, 0 <= x < s + N -> cell c x = cell (t_mem t) x).
        { intros x Hx. rewrite C2 by lia. replace (_ && _) with true by lia. rewrite C1 by lia. rewrite RC by lia. f_equal. lia. }
        split; [intros; apply C4; lia|]. split; [intros; lia|]. intros x Hx. rewrite C4 by lia. apply OLD. lia. }
  destruct K as (m & Em & Lm & K1 & K2 & K3). rewrite Em. cbn [obind]. eexists. split; [reflexivity|].
  cbn [t_size t_length].
  split.
  { constructor; cbn [t_heap t_size t_mem t_allocated]; try lia; auto. rewrite Lm. intros x Hx.
    destruct (K3 x Hx) as [v Hv]. exists v. apply get_cell; cbn [t_mem]; [lia|auto]. }
  split; [split; assumption|]. split; [intro; congruence|]. split; [auto|]. split.
  - intros x Hx1 Hx2. destruct (OLD x) as [v Hv]; [lia|].
    assert (G1 : get t x = Ok v) by (apply get_cell; [lia|auto]). rewrite G1.
    apply get_cell; cbn [t_mem]; [lia|]. rewrite K1; auto.
  - intros x Hx. apply get_cell; cbn [t_mem]; [lia|]. apply K2. lia.
Qed.

Lemma mirror_spec (t : table V) : owns N t ->
  exists t', hTable_mirror N t = Ok t' /\ owns N t' /\ t_size t' = t_size t /\ t_length t' = t_length t /\
    (forall x, 0 <= x < t_size t -> get t' x = get t x) /\
    (N <= t_size t -> forall x, 0 <= x < N -> get t' (t_size t + x) = get t x).
Proof.
  intro O. pose proof N_pos as NP. pose proof (own_size _ _ O). pose proof (own_block _ _ O). unfold hTable_mirror.
  destruct (read_spec (t_mem t) 0 N) as (d & E1 & L1 & C1); [lia|lia|lia|]. rewrite E1. cbn [obind].
  destruct (write_spec (t_mem t) (t_size t) d) as (c & E2 & L2 & C2); [lia|lia|]. rewrite E2. cbn [obind].
  eexists. split; [reflexivity|]. cbn [t_size t_length].
  assert (CI : forall x, 0 <= x < zlen (t_mem t) -> exists v, cell c x = Some v).
  { intros x Hx. rewrite C2 by lia. destruct (_ && _) eqn:B.
    - rewrite C1 by lia. destruct (own_init _ _ O (0 + (x - t_size t))) as [v Hv]; [lia|]. exists v. apply get_cell in Hv; [auto|lia].
    - destruct (own_init _ _ O x) as [v Hv]; [lia|]. exists v. apply get_cell in Hv; [auto|lia]. }
  split.
  { constructor; cbn [t_heap t_size t_mem t_allocated]; try (rewrite ?L2; apply O).
    rewrite L2. intros x Hx. destruct (CI x Hx) as [v Hv]. exists v. apply get_cell; cbn [t_mem]; [lia|auto]. }
  split; [auto|]. split; [auto|]. split.
  - intros x Hx. destruct (own_init _ _ O x) as [v Hv]; [lia|]. rewrite Hv. apply get_cell; cbn [t_mem]; [lia|].
    rewrite C2 by lia. replace (_ && _) with false by lia. apply get_cell in Hv; [auto|lia].
  - intros HN2 x Hx. destruct (own_init _ _ O x) as [v Hv]; [lia|]. rewrite Hv. apply get_cell; cbn [t_mem]; [lia|].
    rewrite C2 by lia. replace (_ && _) with true by lia. rewrite C1 by lia. apply get_cell in Hv; [|lia].
    rewrite <- Hv. f_equal. lia.
Qed.

Lemma put_spec (t : table V) x v : owns N t -> 0 <= x < zlen (t_mem t) ->
  exists t', put t x v = Ok t' /\ owns N t' /\ t_size t' = t_size t /\ get t' x = Ok v /\
    (forall y, 0 <= y < zlen (t_mem t) -> y <> x -> get t' y = get t y) /\ zlen (t_mem t') = zlen (t_mem t).
Proof.
  intros O Hx. unfold put.
  assert (L : zlen [Some v] = 1) by reflexivity.
  destruct (write_spec (t_mem t) x [Some v]) as (c & E2 & L2 & C2); [lia|lia|]. rewrite E2. cbn [obind].
  rewrite L in C2. eexists. split; [reflexivity|]. cbn [t_size].
  assert (G1 : forall y, 0 <= y < zlen (t_mem t) -> y <> x ->
     get (mkTable c (t_heap t) (t_length t) (t_size t) (t_allocated t) (t_head t)) y = get t y).
  { intros y Hy N1. destruct (own_init _ _ O y) as [w Hw]; [lia|]. rewrite Hw. apply get_cell; cbn [t_mem]; [lia|].
    rewrite C2 by lia. replace (_ && _) with false by lia. apply get_cell in Hw; [auto|lia]. }
  assert (G2 : get (mkTable c (t_heap t) (t_length t) (t_size t) (t_allocated t) (t_head t)) x = Ok v).
  { apply get_cell; cbn [t_mem]; [lia|]. rewrite C2 by lia. replace (_ && _) with true by lia.
    replace (x - x) with 0 by lia. reflexivity. }
  split.
  { constructor; cbn [t_heap t_size t_mem t_allocated]; try (rewrite ?L2; apply O).
    rewrite L2. intros y Hy. destruct (Z.eq_dec y x) as [ -> |n]; [eauto|]. rewrite G1 by auto. apply (own_init _ _ O); auto. }
  split; [auto|]. split; [auto|]. split; [exact G1|]. exact L2.
Qed.
End P.
