(** Runs of [tabwrite~]. *)
From Verif Require Import TableModel TableSpec TableProofs SigTabModel SigTabSpec SigTabProofs RecorderModel RecorderSpec TimeSpec RecorderProofs2.
From Coq Require Import Reals Lra.
Open Scope Z_scope.

Section L.
Context {V : Type}.
Lemma insert_in (e x : Z * rev V) l : In x (insert_rev e l) <-> x = e \/ In x l.
Proof.
  induction l as [|y l IH]; cbn [insert_rev]; [cbn; intuition | ].
  destruct (fst e <? fst y); cbn [In]; [intuition | ]. rewrite IH. intuition.
Qed.
Fixpoint sorted (l : list (Z * rev V)) : Prop :=
  match l with [] => True | x :: l' => (forall y, In y l' -> fst x <= fst y) /\ sorted l' end.
Lemma insert_sorted e l : sorted l -> sorted (insert_rev e l).
Proof.
  induction l as [|y l IH]; cbn [insert_rev]; intros S; [cbn; intuition | ]. destruct S as [A B].
  destruct (Z.ltb_spec (fst e) (fst y)).
  - cbn [sorted]. split; [ | split; auto]. intros z [ <- | I]; [lia | ]. specialize (A z I). lia.
  - cbn [sorted]. split; [ | auto]. intros z I. apply insert_in in I as [ -> | I]; [lia | auto].
Qed.
Lemma filter_sorted f l : sorted l -> sorted (filter f l).
Proof.
  induction l as [|y l IH]; cbn; intros S; [exact I | ]. destruct S as [A B]. destruct (f y); [ | auto].
  split; auto. intros z I. apply filter_In in I as [I _]. auto.
Qed.

Definition weight (l : list (Z * rev V)) : nat := fold_right (fun e n => (if is_stop e then 1 else 2) + n)%nat 0%nat l.
Lemma weight_insert e l : weight (insert_rev e l) = ((if is_stop e then 1 else 2) + weight l)%nat.
Proof. induction l as [|y l IH]; cbn [insert_rev]; [reflexivity | ]. destruct (fst e <? fst y); cbn [weight fold_right]; [reflexivity | ]. fold (weight (insert_rev e l)). fold (weight l). lia. Qed.
Lemma weight_filter f l : (weight (filter f l) <= weight l)%nat.
Proof. induction l as [|y l IH]; cbn [filter weight fold_right]; [lia | ]. fold (weight l). destruct (f y); cbn [weight fold_right]; fold (weight (filter f l)); lia. Qed.
Lemma weight_len l : (weight l <= 2 * length l)%nat.
Proof. induction l as [|y l IH]; cbn [weight fold_right length]; [lia | ]. fold (weight l). destruct (is_stop y); lia. Qed.

Lemma fold_insert_spec (msgs : list (Z * umsg V)) : forall l,
  let l' := fold_left (fun l p => insert_rev (fst p, RMsg (snd p)) l) msgs l in
  (sorted l -> sorted l') /\ (forall x, In x l' <-> In x l \/ exists q, In q msgs /\ x = (fst q, RMsg (snd q))).
Proof.
  induction msgs as [|q msgs IH]; intros l; cbn [fold_left].
  - split; auto. intros x. split; [auto | intros [? | (q & [] & _)]; auto].
  - destruct (IH (insert_rev (fst q, RMsg (snd q)) l)) as [A B]. split.
    + intros S. apply A, insert_sorted, S.
    + intros x. rewrite B, insert_in. cbn [In]. split.
      * intros [[ -> | I] | (q' & I & E)]; eauto.
      * intros [I | (q' & [ <- | I] & E)]; eauto.
Qed.

End L.

Section P.
Context {V : Type}.
Variable vzero : V.
Variable N : Z.
Hypothesis HN : simd N.
Variables (sr : f64) (r : Z).
Hypothesis W : whole_rate sr r.
Hypothesis HR : 1 <= r <= 1048576.

Definition small (t : table V) := sound N t /\ t_size t <= 2097152.
Definition state (t : table V) (h : Z) (p : list (Z * rev V)) : recorder V := mkRec (Some t) h (of_int (t_size t)) (spm_of sr) p.
Definition ev_ok (e : Z * rev V) : Prop := match snd e with RMsg m => msg_ok m | RStop => True end.
Definition stopped_or_ending (t : table V) (clock h : Z) (p : list (Z * rev V)) : Prop :=
  h = STOPPED \/ 0 <= h < STOPPED /\ exists T, In (T, RStop) p /\ (T < clock + N \/ h + T <= t_size t + N - 1 + clock).

(** One message. *)
Lemma start_ok t h p ts f : small t -> number_ok f -> exists h1 d,
  start_at vzero sr (state t h p) ts f = Ok (state t h1 (insert_rev (ts + d, RStop) (filter (fun e => negb (is_stop e)) p))) /\
  0 <= d /\ (h1 = STOPPED \/ 0 <= h1 < STOPPED /\ (d = 0 \/ h1 + d <= t_size t)).
Proof.
  intros [S0 S1] F. pose proof (sound_bound N _ S0).
  destruct (start_spec sr r (t_size t) f W HR ltac:(lia) F) as (h1 & d & E1 & E2 & P). exists h1, d. split; [ | exact P].
  unfold start_at, state. cbn [w_t w_head w_size w_spm w_pend writer sTabwrite_onMessage1]. rewrite E2. unfold head_of in E1.
  destruct (fleb fzero f); [rewrite E1 | injection E1 as <-]; reflexivity.
Qed.
Lemma handle_ok t h p ts e : small t -> ev_ok (ts, e) -> exists h1 p1,
  handle vzero sr (state t h p) ts e = Ok (state t h1 p1) /\
  (forall clock, ts < clock + N -> stopped_or_ending t clock h1 p1) /\
  (weight p1 < (if is_stop (ts, e) then 1 else 2) + weight p)%nat /\
  (sorted p -> sorted p1) /\ (Forall ev_ok p -> Forall ev_ok p1) /\
  (forall x, In x p1 -> In x p \/ snd x = RStop).
Proof.
  intros S0 OK.
  assert (ST : forall f, number_ok f -> e <> RStop -> exists h1 p1, start_at vzero sr (state t h p) ts f = Ok (state t h1 p1) /\
    (forall clock, ts < clock + N -> stopped_or_ending t clock h1 p1) /\
    (weight p1 < (if is_stop (ts, e) then 1 else 2) + weight p)%nat /\
    (sorted p -> sorted p1) /\ (Forall ev_ok p -> Forall ev_ok p1) /\
  (forall x, In x p1 -> In x p \/ snd x = RStop)).
  { intros f Hf Ne. destruct (start_ok t h p ts f S0 Hf) as (h1 & d & E & D & P).
    exists h1, (insert_rev (ts + d, RStop) (filter (fun e => negb (is_stop e)) p)). split; [exact E | ]. split; [ | split; [ | split; [ | split]]].
    - intros clock L. destruct P as [P | [P Q]]; [left; exact P | right; split; [exact P | ]]. exists (ts + d). split; [apply insert_in; now left | ].
      destruct Q as [ -> | Q]; [left | right]; lia.
    - rewrite weight_insert. change (is_stop (ts + d, RStop)) with true. pose proof (weight_filter (fun e => negb (is_stop e)) p).
      destruct e; [ | congruence]. change (is_stop (ts, RMsg m)) with false. cbv iota. lia.
    - intros So. apply insert_sorted, filter_sorted, So.
    - intros Fa. apply Forall_forall. intros x I. apply insert_in in I as [ -> | I]; [exact Logic.I | ]. apply filter_In in I as [I _]. rewrite Forall_forall in Fa. auto.
    - intros x I. apply insert_in in I as [ -> | I]; [now right | ]. apply filter_In in I as [I _]. auto. }
  assert (SP : exists h1 p1, stop vzero (state t h p) = Ok (state t h1 p1) /\
    (forall clock, ts < clock + N -> stopped_or_ending t clock h1 p1) /\
    (weight p1 < (if is_stop (ts, e) then 1 else 2) + weight p)%nat /\ (sorted p -> sorted p1) /\ (Forall ev_ok p -> Forall ev_ok p1) /\
  (forall x, In x p1 -> In x p \/ snd x = RStop)).
  { exists STOPPED, p. split; [reflexivity | ]. split; [left; reflexivity | ]. split; [destruct (is_stop _); lia | auto]. }
  destruct e as [[f | | t' | ] | ]; cbn [handle]; auto.
  - apply ST; [exact OK | discriminate].
  - destruct OK.
  - apply ST; [right; split; [reflexivity | ] | discriminate]. change (B2R fzero) with 0%R. rewrite Rabs_R0. lra.
Qed.

Lemma drain_ok t clock : small t -> forall fuel h p, (weight p <= fuel)%nat -> sorted p -> Forall ev_ok p -> stopped_or_ending t clock h p ->
  exists h1 p1, drain vzero sr fuel (clock + N) (state t h p) = Some (Ok (state t h1 p1)) /\ sorted p1 /\ Forall ev_ok p1 /\
    stopped_or_ending t clock h1 p1 /\ (forall x, In x p1 -> clock + N <= fst x) /\ (forall x, In x p1 -> In x p \/ snd x = RStop).
Proof.
  intros S0. induction fuel as [|fuel IH]; intros h p Wt So Ev J; destruct p as [|[ts e] p]; cbn [drain state w_pend].
  - exists h, []. repeat split; auto; intros x [].
  - cbn [weight fold_right] in Wt. destruct (is_stop (ts, e)); lia.
  - exists h, []. repeat split; auto; intros x [].
  - destruct (Z.ltb_spec ts (clock + N)) as [L | L].
    + change (with_pend _ p) with (state t h p). inversion Ev; subst.
      destruct (handle_ok t h p ts e S0) as (h1 & p1 & -> & J1 & W1 & So1 & Ev1 & In1); [assumption | ].
      cbn [weight fold_right] in Wt. fold (weight p) in Wt. destruct So as [_ So].
      destruct (IH h1 p1) as (h2 & p2 & -> & A & B & C & D & E); auto; [lia | ].
      exists h2, p2. repeat split; auto. intros x I. destruct (E x I) as [I1 | ]; [ | auto]. destruct (In1 x I1); [left; right | right]; auto.
    + exists h, ((ts, e) :: p). split; [reflexivity | ]. split; [exact So | ]. split; [exact Ev | ]. split; [exact J | ]. split; [ | auto].
      intros x [ <- | I]; [exact L | ]. destruct So as [A _]. specialize (A x I). cbn [fst] in A. lia.
Qed.

Lemma owns_len (t : table V) : sound N t -> t_size t + N <= zlen (t_mem t) < STOPPED.
Proof. intros S0. pose proof (sound_bound N _ S0). unfold STOPPED. lia. Qed.

(** One block of signal. *)
Lemma dsp_ok t h p v : sound N t -> vec N v -> 0 <= h -> h + N <= t_size t + N - 1 -> exists t1,
  dsp N (state t h p) v = Ok (state t1 (h + N) p) /\ sound N t1 /\ t_size t1 = t_size t /\ holds t1 h v /\
  (forall x, 0 <= x < zlen (t_mem t) -> ~ h <= x < h + N -> get t1 x = get t x) /\ zlen (t_mem t1) = zlen (t_mem t).
Proof.
  intros S0 Hv H0 H1. pose proof (owns_len _ S0). assert (NP : 1 <= N) by (destruct HN as [ -> | [ -> | -> ]]; lia). pose proof (proj1 S0) as O.
  unfold dsp, state. cbn [w_t w_head w_size w_spm w_pend]. unfold tabwrite_stoppable_f.
  replace (h =? STOPPED) with false by (symmetry; apply Z.eqb_neq; lia).
  destruct (store_spec N HN false t h v O H0 Hv ltac:(lia) ltac:(discriminate)) as (t1 & -> & O1 & E1 & _ & E3 & _ & E5 & Hd & Un).
  cbn [obind]. rewrite u32_id by (unfold STOPPED in *; lia). exists t1.
  split; [rewrite E1; reflexivity | ]. split; [exact (sound_store N t t1 S0 O1 E1 E3) | ]. auto.
Qed.
Lemma dsp_stopped t p v : dsp N (state t STOPPED p) v = Ok (state t STOPPED p).
Proof. reflexivity. Qed.

Lemma block_ok t clock h p msgs v : small t -> sorted p -> Forall ev_ok p -> stopped_or_ending t clock h p ->
  Forall (fun q => msg_ok (snd q)) msgs -> vec N v ->
  exists t1 h1 p1, rblock vzero N sr clock (state t h p) msgs v = Some (Ok (state t1 h1 p1)) /\ small t1 /\ t_size t1 = t_size t /\
    sorted p1 /\ Forall ev_ok p1 /\ stopped_or_ending t1 (clock + N) h1 p1 /\
    (forall x, In x p1 -> clock + N <= fst x) /\ (forall x, In x p1 -> In x p \/ (exists q, In q msgs /\ x = (fst q, RMsg (snd q))) \/ snd x = RStop).
Proof.
  intros S0 So Ev J M Hv. assert (NP : 1 <= N) by (destruct HN as [ -> | [ -> | -> ]]; lia). unfold rblock. cbn [state w_pend]. destruct (fold_insert_spec msgs p) as [A B]. cbv zeta in A, B.
  set (p0 := fold_left _ msgs p) in *. change (with_pend _ p0) with (state t h p0). cbn [state w_pend].
  assert (Ev0 : Forall ev_ok p0).
  { apply Forall_forall. intros x I. apply B in I as [I | (q & I & ->)]; [rewrite Forall_forall in Ev; auto | ]. rewrite Forall_forall in M. exact (M q I). }
  assert (J0 : stopped_or_ending t clock h p0).
  { destruct J as [J | (H & T & I & L)]; [left; exact J | right; split; [exact H | ]]. exists T. split; [apply B; now left | exact L]. }
  change (2 * length (w_pend (state t h p0)))%nat with (2 * length p0)%nat.
  destruct (drain_ok t clock S0 (2 * length p0) h p0 (weight_len p0) (A So) Ev0 J0) as (h1 & p1 & -> & So1 & Ev1 & J1 & Due & Fr).
  assert (Fr' : forall x, In x p1 -> In x p \/ (exists q, In q msgs /\ x = (fst q, RMsg (snd q))) \/ snd x = RStop).
  { intros x I. destruct (Fr x I) as [I' | ]; [apply B in I' as [ | ]; auto | auto]. }
  destruct J1 as [ -> | (H1 & T & I & L)].
  - rewrite dsp_stopped. exists t, STOPPED, p1. repeat split; auto; try apply S0. left. reflexivity.
  - pose proof (Due _ I) as DT. cbn [fst] in DT. destruct (dsp_ok t h1 p1 v (proj1 S0) Hv ltac:(lia) ltac:(lia)) as (t1 & -> & So' & Sz & _).
    pose proof (owns_len _ (proj1 S0)).
    exists t1, (h1 + N), p1. repeat split; auto; try apply So'; try (rewrite Sz; apply S0).
    right. rewrite Sz. split; [lia | ]. exists T. split; [exact I | right; lia].
Qed.

Lemma run_ok blocks : forall t clock h p, small t -> sorted p -> Forall ev_ok p -> stopped_or_ending t clock h p -> blocks_ok N blocks ->
  exists t1 h1 p1, rrun vzero N sr clock (state t h p) blocks = Some (Ok (state t1 h1 p1)) /\ small t1 /\ t_size t1 = t_size t /\
    sorted p1 /\ Forall ev_ok p1 /\ stopped_or_ending t1 (clock + N * zlen blocks) h1 p1 /\
    (punctual N clock blocks -> (forall x, In x p -> snd x = RStop) -> forall x, In x p1 -> snd x = RStop).
Proof.
  induction blocks as [|[msgs v] bs IH]; intros t clock h p S0 So Ev J OK; cbn [rrun].
  - exists t, h, p. replace (clock + N * zlen []) with clock by (unfold zlen; cbn [length]; lia). repeat split; auto; apply S0.
  - inversion OK as [|? ? [M Hv] OK']; subst. cbn [fst snd] in *.
    destruct (block_ok t clock h p msgs v S0 So Ev J M Hv) as (t1 & h1 & p1 & -> & S1 & Sz & So1 & Ev1 & J1 & Due & Fr).
    destruct (IH t1 (clock + N) h1 p1 S1 So1 Ev1 J1 OK') as (t2 & h2 & p2 & -> & S2 & Sz2 & So2 & Ev2 & J2 & R2).
    exists t2, h2, p2. rewrite Sz2, Sz. rewrite zlen_cons. replace (clock + N * (1 + zlen bs)) with (clock + N + N * zlen bs) by lia.
    repeat split; auto; try apply S2.
    intros [Pn P'] R0. apply R2; auto. intros x I. destruct (Fr x I) as [I' | [(q & I' & ->) | ]]; auto.
    rewrite Forall_forall in Pn. specialize (Pn q I'). specialize (Due _ I). cbn [fst] in Due. lia.
Qed.

Lemma boot_ok t : rboot vzero sr t = Ok (state t STOPPED []).
Proof. reflexivity. Qed.
End P.
