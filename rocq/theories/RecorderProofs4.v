(** What a recording leaves in the table. *)
From Verif Require Import TableModel TableSpec TableProofs SigTabModel SigTabSpec SigTabProofs RecorderModel RecorderSpec TimeSpec RecorderProofs2 RecorderProofs3.
From Coq Require Import Reals Lra.
Open Scope Z_scope.

Section P.
Context {V : Type}.
Variable vzero : V.
Variable N : Z.
Hypothesis HN : simd N.
Variables (sr : f64) (r : Z).
Hypothesis W : whole_rate sr r.
Hypothesis HR : 1 <= r <= 1048576.
Notation state := (state sr).

Definition quiet (vs : list (list V)) : list (list (Z * umsg V) * list V) := map (fun v => ([], v)) vs.

Lemma insert_mid (x e : Z * rev V) X Y : (forall y, In y X -> fst y <= fst e) -> exists X' Y',
  insert_rev x (X ++ e :: Y) = X' ++ e :: Y' /\ (forall y, In y X' -> fst y <= fst e /\ (y = x \/ In y X)) /\
  (forall y, In y Y' -> y = x \/ In y Y).
Proof.
  induction X as [|a X IH]; intros H; cbn [app insert_rev].
  - destruct (Z.ltb_spec (fst x) (fst e)).
    + exists [x], Y. split; [reflexivity | ]. split; [intros y [ <- | []]; split; [lia | auto] | auto].
    + exists [], (insert_rev x Y). split; [reflexivity | ]. split; [intros y [] | ]. intros y I. now apply insert_in in I.
  - destruct (Z.ltb_spec (fst x) (fst a)).
    + exists (x :: a :: X), Y. split; [reflexivity | ]. pose proof (H a (or_introl eq_refl)). split; [ | auto].
      intros y [ <- | I]; [split; [lia | auto] | auto].
    + destruct IH as (X' & Y' & E & A & B); [intros y I; apply H; now right | ]. exists (a :: X'), Y'. rewrite E. split; [reflexivity | ]. split; [ | exact B].
      intros y [ <- | I]; [split; [apply H; now left | right; now left] | ]. destruct (A y I) as [? [? | ?]]; split; auto. right. now right.
Qed.
Lemma insert_split (e : Z * rev V) l : sorted l -> exists A B, insert_rev e l = A ++ e :: B /\
  (forall y, In y A -> fst y <= fst e /\ In y l) /\ (forall y, In y B -> fst e < fst y /\ In y l).
Proof.
  induction l as [|a l IH]; intros S; cbn [insert_rev].
  - exists [], []. split; [reflexivity | ]. split; intros y [].
  - destruct S as [S1 S2]. destruct (Z.ltb_spec (fst e) (fst a)).
    + exists [], (a :: l). split; [reflexivity | ]. split; [intros y [] | ]. intros y I. split; [ | exact I].
      destruct I as [ <- | I]; [lia | ]. specialize (S1 y I). lia.
    + destruct (IH S2) as (A & B & E & P & Q). exists (a :: A), B. rewrite E. split; [reflexivity | ].
      split; [intros y [ <- | I]; [split; [lia | now left] | ] | intros y I]; [destruct (P y I) | destruct (Q y I)]; split; auto; now right.
Qed.
Definition not_stop (e : Z * rev V) := negb (is_stop e).
Lemma stops_filtered (B : list (Z * rev V)) : (forall y, In y B -> snd y = RStop) -> filter not_stop B = [].
Proof.
  induction B as [|[a b] B IH]; intros H; [reflexivity | ]. cbn [filter]. pose proof (H _ (or_introl eq_refl)) as E. cbn in E. subst b. cbn.
  apply IH. intros y I. apply H. now right.
Qed.

Lemma handle_shape t h p ts e : small N t -> ev_ok (ts, e) -> exists h1 p1,
  handle vzero sr (state t h p) ts e = Ok (state t h1 p1) /\ (p1 = p \/ exists T, p1 = insert_rev (T, RStop) (filter not_stop p)).
Proof.
  intros S0 OK.
  assert (ST : forall f, number_ok f -> exists h1 p1, start_at vzero sr (state t h p) ts f = Ok (state t h1 p1) /\
    (p1 = p \/ exists T, p1 = insert_rev (T, RStop) (filter not_stop p))).
  { intros f Hf. destruct (start_ok vzero N sr r W HR t h p ts f S0 Hf) as (h1 & d & E & _). do 2 eexists. split; [exact E | ]. right. eauto. }
  destruct e as [[f | | t' | ] | ]; cbn [handle]; try (exists STOPPED, p; split; [reflexivity | now left]).
  - apply ST, OK.
  - destruct OK.
  - apply ST. right. split; [reflexivity | ]. change (B2R fzero) with 0%R. rewrite Rabs_R0. lra.
Qed.

(** All messages of the block up to the last start. *)
Lemma drain_start t till ts f h d : small N t -> ts < till ->
  (forall h0 p, start_at vzero sr (state t h0 p) ts f = Ok (state t h (insert_rev (ts + d, RStop) (filter not_stop p)))) ->
  forall fuel h0 A B, (weight (A ++ (ts, RMsg (UStart f)) :: B) <= fuel)%nat ->
  (forall y, In y A -> fst y <= ts /\ ev_ok y) -> (forall y, In y B -> snd y = RStop) ->
  exists fuel', drain vzero sr fuel till (state t h0 (A ++ (ts, RMsg (UStart f)) :: B)) = drain vzero sr (S fuel') till (state t h [(ts + d, RStop)]).
Proof.
  intros S0 L ST. induction fuel as [|fuel IH]; intros h0 A B Wt HA HB.
  { exfalso. destruct A as [|a A]; cbn [app weight fold_right] in Wt; [cbn in Wt; lia | destruct (is_stop a); lia]. }
  destruct A as [|[ts0 e0] A]; cbn [app] in *.
  - exists (pred fuel). cbn [drain w_pend RecorderProofs3.state]. replace (ts <? till) with true by (symmetry; now apply Z.ltb_lt).
    change (with_pend _ B) with (state t h0 B). cbn [handle]. rewrite ST. rewrite (stops_filtered B HB). cbn [insert_rev].
    cbn [weight fold_right is_stop snd] in Wt. destruct fuel; [lia | ]. reflexivity.
  - destruct (HA (ts0, e0) (or_introl eq_refl)) as [L0 OK0]. cbn [fst] in L0.
    cbn [drain w_pend RecorderProofs3.state]. replace (ts0 <? till) with true by (symmetry; apply Z.ltb_lt; lia).
    change (with_pend _ (A ++ (ts, RMsg (UStart f)) :: B)) with (state t h0 (A ++ (ts, RMsg (UStart f)) :: B)).
    destruct (handle_ok vzero N sr r W HR t h0 (A ++ (ts, RMsg (UStart f)) :: B) ts0 e0 S0 OK0) as (h1 & p1 & E & _ & W1 & _).
    destruct (handle_shape t h0 (A ++ (ts, RMsg (UStart f)) :: B) ts0 e0 S0 OK0) as (h1' & p1' & E' & Sh).
    rewrite E in E'. injection E' as E1 E2. subst h1' p1'. rewrite E.
    cbn [weight fold_right] in Wt. fold (weight (A ++ (ts, RMsg (UStart f)) :: B)) in Wt.
    assert (HA' : forall y, In y A -> fst y <= ts /\ ev_ok y) by (intros y I; apply HA; now right).
    destruct Sh as [ -> | [T ET]].
    + apply IH; auto. lia.
    + rewrite filter_app in ET. cbn [filter] in ET. change (not_stop (ts, RMsg (UStart f))) with true in ET. cbv iota in ET. rewrite (stops_filtered B HB) in ET.
      destruct (insert_mid (T, RStop) (ts, RMsg (UStart f)) (filter not_stop A) []) as (X & Y & EX & P & Q).
      { intros y I. apply filter_In in I as [I _]. apply HA', I. }
      rewrite EX in ET. subst p1. apply IH; [lia | | ].
      * intros y I. destruct (P y I) as [P1 [ -> | P2]]; [split; [exact P1 | exact Logic.I] | ]. apply filter_In in P2 as [P2 _]. auto.
      * intros y I. destruct (Q y I) as [ -> | []]. reflexivity.
Qed.

(** Blocks without messages. *)
Lemma idle_blocks vs : forall t clock, Forall (vec N) vs -> rrun vzero N sr clock (state t STOPPED []) (quiet vs) = Some (Ok (state t STOPPED [])).
Proof. induction vs as [|v vs IH]; intros t clock F; [reflexivity | ]. inversion F; subst. cbn [quiet map rrun]. change (rblock vzero N sr clock (state t STOPPED []) [] v) with (Some (Ok (state t STOPPED []))). cbv iota. apply IH; assumption. Qed.
Lemma last_block T t clock h v : T < clock + N -> rblock vzero N sr clock (state t h [(T, RStop)]) [] v = Some (Ok (state t STOPPED [])).
Proof.
  intros L. unfold rblock. cbn [fold_left RecorderProofs3.state with_pend w_pend length Nat.mul Nat.add drain].
  replace (T <? clock + N) with true by (symmetry; now apply Z.ltb_lt). reflexivity.
Qed.
Lemma next_block T t clock h v : clock + N <= T -> rblock vzero N sr clock (state t h [(T, RStop)]) [] v = Some (dsp N (state t h [(T, RStop)]) v).
Proof.
  intros L. unfold rblock. cbn [fold_left RecorderProofs3.state with_pend w_pend length Nat.mul Nat.add drain].
  replace (T <? clock + N) with false by (symmetry; now apply Z.ltb_ge). reflexivity.
Qed.
Lemma recording T vs : forall t clock h, sound N t -> 0 <= h -> clock <= T -> h + T <= t_size t + N - 1 + clock -> Forall (vec N) vs ->
  let m := Z.to_nat ((T - clock) / N) in
  exists t1 h1 p1, rrun vzero N sr clock (state t h [(T, RStop)]) (quiet vs) = Some (Ok (state t1 h1 p1)) /\
    sound N t1 /\ t_size t1 = t_size t /\ zlen (t_mem t1) = zlen (t_mem t) /\
    holds t1 h (concat (firstn m vs)) /\
    (forall x, 0 <= x < zlen (t_mem t) -> ~ h <= x < h + N * Z.of_nat (min m (length vs)) -> get t1 x = get t x) /\
    ((m < length vs)%nat -> h1 = STOPPED /\ p1 = []).
Proof.
  assert (NP : 1 <= N) by (destruct HN as [ -> | [ -> | -> ]]; lia).
  induction vs as [|v vs IH]; intros t clock h S0 H0 HT HS F m.
  - exists t, h, [(T, RStop)]. repeat split; auto; try apply S0.
    + rewrite firstn_nil. intros i x. destruct i; discriminate.
    + cbn in H. lia.
    + cbn in H. lia.
  - inversion F as [|? ? Hv F']; subst. cbn [quiet map rrun]. fold (quiet vs).
    destruct (Z.lt_ge_cases T (clock + N)) as [L | L].
    + assert (M0 : m = 0%nat) by (unfold m; rewrite Z.div_small by lia; reflexivity). rewrite (last_block T t clock h v L). rewrite (idle_blocks vs t _ F').
      exists t, STOPPED, []. rewrite M0. repeat split; auto; try apply S0. intros i x. destruct i; discriminate.
    + rewrite (next_block T t clock h v L).
      destruct (dsp_ok N HN sr t h [(T, RStop)] v S0 Hv H0 ltac:(lia)) as (t1 & -> & S1 & Sz & Hd & Un & Lm).
      assert (M1 : m = S (Z.to_nat ((T - (clock + N)) / N))).
      { unfold m. replace (T - clock) with ((T - (clock + N)) + 1 * N) by lia. rewrite Z.div_add by lia.
        assert (0 <= (T - (clock + N)) / N) by (apply Z.div_pos; lia). lia. }
      destruct (IH t1 (clock + N) (h + N) S1 ltac:(lia) L ltac:(rewrite Sz; lia) F') as (t2 & h2 & p2 & -> & S2 & Sz2 & Lm2 & Hd2 & Un2 & St2).
      rewrite M1. set (m' := Z.to_nat ((T - (clock + N)) / N)) in *. pose proof (owns_len N _ S0) as OL.
      exists t2, h2, p2. split; [reflexivity | ]. split; [exact S2 | ]. split; [lia | ]. split; [lia | ]. split; [ | split].
      * cbn [firstn concat]. apply holds_app. rewrite Hv. split; [ | exact Hd2].
        intros i x Ei. rewrite Un2; [apply Hd, Ei | | ].
        -- assert (i < length v)%nat by (apply nth_error_Some; congruence). unfold vec, zlen in Hv. rewrite Lm. lia.
        -- assert (i < length v)%nat by (apply nth_error_Some; congruence). unfold vec, zlen in Hv. lia.
      * intros x Hx Nx. cbn [length Nat.min] in Nx. rewrite Nat2Z.inj_succ, Z.mul_succ_r in Nx.
        assert (0 <= N * Z.of_nat (min m' (length vs))) by (apply Z.mul_nonneg_nonneg; lia). rewrite Un2; [apply Un; [exact Hx | lia] | lia | lia].
      * intros Lt. apply St2. cbn [length] in Lt. lia.
Qed.

Lemma start_block t clock h0 p msgs ts h v0 vs : small N t -> sorted p -> (forall x, In x p -> snd x = RStop) ->
  Forall (fun q => msg_ok (snd q) /\ fst q <= ts) msgs -> clock <= ts < clock + N -> 0 <= h <= t_size t -> Forall (vec N) (v0 :: vs) ->
  exists m, t_size t - N <= h + N * Z.of_nat m < t_size t + N /\
  exists t1 h1 p1, rrun vzero N sr clock (state t h0 p) ((msgs ++ [(ts, UStart (of_int h))], v0) :: quiet vs) = Some (Ok (state t1 h1 p1)) /\
    sound N t1 /\ t_size t1 = t_size t /\
    holds t1 h (concat (firstn m (v0 :: vs))) /\
    (forall x, 0 <= x < zlen (t_mem t) -> ~ h <= x < h + N * Z.of_nat (min m (S (length vs))) -> get t1 x = get t x) /\
    ((m <= length vs)%nat -> h1 = STOPPED /\ p1 = []).
Proof.
  assert (NP : 1 <= N) by (destruct HN as [ -> | [ -> | -> ]]; lia).
  intros S0 So Stops M Ht Hh F. pose proof (sound_bound N _ (proj1 S0)) as SB.
  destruct (start_whole sr r (t_size t) h W HR ltac:(destruct S0; lia) Hh) as (d & E1 & E2 & D & D0).
  assert (ST : forall h0 p, start_at vzero sr (state t h0 p) ts (of_int h) = Ok (state t h (insert_rev (ts + d, RStop) (filter not_stop p)))).
  { intros h' p'. unfold start_at, RecorderProofs3.state. cbn [w_t w_head w_size w_spm w_pend writer sTabwrite_onMessage1]. rewrite E2. unfold head_of in E1.
    destruct (fleb fzero (of_int h)); [rewrite E1 | injection E1 as <-]; reflexivity. }
  exists (Z.to_nat ((ts + d - clock) / N)).
  assert (Q0 : 0 <= (ts + d - clock) / N) by (apply Z.div_pos; lia).
  pose proof (Z.mul_div_le (ts + d - clock) N ltac:(lia)). pose proof (Z.mul_succ_div_gt (ts + d - clock) N ltac:(lia)).
  rewrite Z2Nat.id by exact Q0. split; [nia | ].
  destruct (recording (ts + d) (v0 :: vs) t clock h (proj1 S0) ltac:(lia) ltac:(lia) ltac:(lia) F) as (t1 & h1 & p1 & R & P1 & P2 & P3 & P4 & P5 & P6).
  exists t1, h1, p1. split; [ | split; [exact P1 | split; [exact P2 | split; [exact P4 | split; [exact P5 | ]]]]].
  2: { intros L. apply P6. cbn [length]. lia. }
  rewrite <- R. cbn [quiet map rrun]. fold (quiet vs).
  replace (rblock vzero N sr clock (state t h0 p) (msgs ++ [(ts, UStart (of_int h))]) v0)
    with (rblock vzero N sr clock (state t h [(ts + d, RStop)]) [] v0); [reflexivity | ].
  unfold rblock at 2. cbn [RecorderProofs3.state w_pend]. rewrite fold_left_app. cbn [fold_left fst snd].
  destruct (fold_insert_spec msgs p) as [A B]. cbv zeta in A, B. set (p0 := fold_left _ msgs p) in *.
  destruct (insert_split (ts, RMsg (UStart (of_int h))) p0 (A So)) as (X & Y & EX & PX & PY). cbn [fst] in PX, PY.
  rewrite EX. set (p2 := X ++ _ :: Y). change (with_pend _ p2) with (state t h0 p2). change (w_pend (state t h0 p2)) with p2. unfold p2.
  rewrite Forall_forall in M.
  destruct (drain_start t (clock + N) ts (of_int h) h d S0 ltac:(lia) ST (2 * length (X ++ (ts, RMsg (UStart (of_int h))) :: Y)) h0 X Y) as [fuel' ->].
  - apply weight_len.
  - intros y I. destruct (PX y I) as [L I0]. split; [exact L | ]. apply B in I0 as [I0 | (q & I0 & ->)]; [ | exact (proj1 (M q I0))].
    unfold ev_ok. rewrite (Stops y I0). exact Logic.I.
  - intros y I. destruct (PY y I) as [L I0]. apply B in I0 as [I0 | (q & I0 & ->)]; [now apply Stops | ]. pose proof (proj2 (M q I0)). cbn [fst] in L. lia.
  - unfold rblock. cbn [fold_left RecorderProofs3.state with_pend w_pend length Nat.mul Nat.add drain].
    destruct (ts + d <? clock + N); [ | reflexivity]. cbn [handle stop w_t writer sTabwrite_onMessage1 obind]. destruct fuel'; reflexivity.
Qed.
End P.
