(** Proofs about cascade_expansion. *)
From Verif Require Import GraphModel RewriteModel RewriteSpec.
Require Import ZifyBool.

Lemma hits_iff o i c : hits o i c = true <-> c.(c_sig) = true /\ c.(c_to) = o /\ c.(c_in) = i.
Proof. unfold hits. rewrite !andb_true_iff, !Nat.eqb_eq. tauto. Qed.
Lemma signals_at g o i : signals (at_inlet g o i) = filter (hits o i) g.(conns).
Proof.
  unfold signals, at_inlet, hits. induction (conns g) as [ | c l IH]; [reflexivity | ]. cbn [filter].
  destruct (Nat.eqb (c_to c) o && Nat.eqb (c_in c) i); cbn [filter]; destruct (c_sig c); cbn [andb]; rewrite ?IH; reflexivity.
Qed.
Lemma between_iff a b x : between a b x = true <-> a <= x < b.
Proof. unfold between. rewrite andb_true_iff, Nat.leb_le, Nat.ltb_lt. reflexivity. Qed.

(** ** Where the connections go *)
Lemma summand_inj n j k : summand n j = summand n k -> j = k.
Proof. destruct j, k; cbn [summand]; intros H; try reflexivity; injection H; intros; lia. Qed.
Lemma summand_fst n k : n <= fst (summand n k).
Proof. destruct k; cbn [summand fst]; lia. Qed.
Lemma hits_retarget d e c p : hits d e (retarget c p) = true <-> c.(c_sig) = true /\ p = (d, e).
Proof.
  rewrite hits_iff. unfold retarget; cbn [c_sig c_to c_in]. destruct p as [a b]; cbn [fst snd].
  split; [intros (H1 & H2 & H3); subst; auto | intros [H1 H2]; inversion H2; subst; auto].
Qed.

Section Spread.
Context (o i n : nat) (Ho : o < n).
Lemma spread_other o2 i2 l : forall k, o2 < n -> (o2, i2) <> (o, i) ->
  filter (hits o2 i2) (spread o i n k l) = filter (hits o2 i2) l.
Proof.
  induction l as [ | c l IH]; intros k H Hne; [reflexivity | ]. cbn [spread filter].
  destruct (hits o i c) eqn:E; cbn [filter].
  - assert (hits o2 i2 c = false) as ->.
    { apply not_true_iff_false. intros F. apply hits_iff in E, F. destruct E as (_ & <- & <-), F as (_ & <- & <-). congruence. }
    assert (hits o2 i2 (retarget c (summand n k)) = false) as ->.
    { apply not_true_iff_false. intros F. apply hits_retarget in F. destruct F as [_ F].
      pose proof (summand_fst n k) as G. rewrite F in G. cbn [fst] in G. lia. }
    now apply IH.
  - rewrite IH by auto. reflexivity.
Qed.
Lemma spread_self l : forall k, filter (hits o i) (spread o i n k l) = [].
Proof.
  induction l as [ | c l IH]; intros k; [reflexivity | ]. cbn [spread].
  destruct (hits o i c) eqn:E; cbn [filter]; [ | rewrite E; apply IH].
  assert (hits o i (retarget c (summand n k)) = false) as ->; [ | apply IH].
  apply not_true_iff_false. intros F. apply hits_retarget in F. destruct F as [_ F].
  pose proof (summand_fst n k) as G. rewrite F in G. cbn [fst] in G. lia.
Qed.
Lemma spread_none d e l : n <= d -> (forall c, In c l -> c.(c_to) < n) ->
  forall k, (forall j, k <= j -> summand n j <> (d, e)) -> filter (hits d e) (spread o i n k l) = [].
Proof.
  intros Hd. induction l as [ | c l IH]; intros Hl k Hk; [reflexivity | ]. cbn [spread].
  assert (IH' := IH (fun c' H => Hl c' (or_intror H))).
  destruct (hits o i c) eqn:E; cbn [filter].
  - destruct (hits d e (retarget c (summand n k))) eqn:F.
    + apply hits_retarget in F. destruct F as [_ F]. exfalso. exact (Hk k (le_n k) F).
    + apply IH'. intros j Hj. apply Hk. lia.
  - destruct (hits d e c) eqn:F; [ | now apply IH'].
    apply hits_iff in F. destruct F as (_ & F & _). specialize (Hl c (or_introl eq_refl)). lia.
Qed.
Lemma spread_new d e l : n <= d -> (forall c, In c l -> c.(c_to) < n) ->
  forall k j, summand n (k + j) = (d, e) ->
  filter (hits d e) (spread o i n k l) = match nth_error (filter (hits o i) l) j with Some c => [retarget c (d, e)] | None => [] end.
Proof.
  intros Hd. induction l as [ | c l IH]; intros Hl k j Hj; [now destruct j | ]. cbn [spread filter].
  assert (IH' := IH (fun c' H => Hl c' (or_intror H))).
  destruct (hits o i c) eqn:E; cbn [filter].
  - destruct j as [ | j]; cbn [nth_error].
    + rewrite Nat.add_0_r in Hj. rewrite Hj.
      assert (hits d e (retarget c (d, e)) = true) as ->. { apply hits_retarget. apply hits_iff in E. tauto. }
      rewrite spread_none; [reflexivity | exact Hd | now intros c' H; apply Hl; right | ].
      intros j' Hj' F. rewrite <- Hj in F. apply summand_inj in F. lia.
    + destruct (hits d e (retarget c (summand n k))) eqn:F.
      * apply hits_retarget in F. destruct F as [_ F]. rewrite <- Hj in F. apply summand_inj in F. lia.
      * apply IH'. now rewrite <- Nat.add_succ_comm in Hj.
  - destruct (hits d e c) eqn:F; [ | now apply IH'].
    apply hits_iff in F. destruct F as (_ & F & _). specialize (Hl c (or_introl eq_refl)). lia.
Qed.
End Spread.

Lemma filter_map_seq_one {A} (p : A -> bool) (h : nat -> A) k : forall s m, s <= k < s + m ->
  (forall x, p (h x) = Nat.eqb x k) -> filter p (map h (seq s m)) = [h k].
Proof.
  intros s m. revert s. induction m as [ | m IH]; intros s Hk Hp; [lia | ]. cbn [seq map filter]. rewrite Hp.
  destruct (Nat.eqb_spec s k) as [-> | Hne].
  - f_equal. clear IH Hk. assert (H : forall t, k < t -> filter p (map h (seq t m)) = []); [ | apply H; lia].
    induction m as [ | m IHm]; intros t Ht; [reflexivity | ]. cbn [seq map filter]. rewrite Hp.
    destruct (Nat.eqb_spec t k); [lia | ]. apply IHm. lia.
  - apply IH; [lia | exact Hp].
Qed.
Lemma filter_none {A} (p : A -> bool) l : (forall x, In x l -> p x = false) -> filter p l = [].
Proof.
  induction l as [ | x l IH]; intros H; [reflexivity | ]. cbn [filter]. rewrite (H x (or_introl eq_refl)).
  apply IH. intros y Hy. apply H. now right.
Qed.
Section Chain.
Context (o i n len : nat) (Ho : o < n) (Hlen : 2 <= len).
Lemma hits_signal d e a j b k : hits d e (signal_conn a j b k) = Nat.eqb b d && Nat.eqb k e.
Proof. reflexivity. Qed.
Lemma chain_self : filter (hits o i) (chain o i n len) = [signal_conn (n + (len - 2)) 0 o i].
Proof.
  unfold chain. rewrite filter_app. cbn [filter]. rewrite hits_signal, !Nat.eqb_refl. cbn [andb].
  rewrite filter_none; [reflexivity | ]. intros x Hx. apply in_map_iff in Hx. destruct Hx as (k & <- & _).
  rewrite hits_signal. lia.
Qed.
Lemma chain_other o2 i2 : o2 < n -> (o2, i2) <> (o, i) -> filter (hits o2 i2) (chain o i n len) = [].
Proof.
  intros H Hne. apply filter_none. intros x Hx. unfold chain in Hx. apply in_app_or in Hx. destruct Hx as [Hx | [<- | []]].
  - apply in_map_iff in Hx. destruct Hx as (k & <- & _). rewrite hits_signal. lia.
  - rewrite hits_signal. apply not_true_iff_false. intros F. apply andb_true_iff in F. rewrite !Nat.eqb_eq in F.
    destruct F as [-> ->]. congruence.
Qed.
Lemma chain_next k : k < len - 2 -> filter (hits (n + S k) 0) (chain o i n len) = [signal_conn (n + k) 0 (n + S k) 0].
Proof.
  intros H. unfold chain. rewrite filter_app. cbn [filter]. rewrite hits_signal.
  replace (Nat.eqb o (n + S k)) with false by lia. cbn [andb]. rewrite app_nil_r.
  apply (filter_map_seq_one (hits (n + S k) 0) (fun x => signal_conn (n + x) 0 (n + S x) 0) k).
  - lia.
  - intros x. rewrite hits_signal. lia.
Qed.
Lemma chain_first : filter (hits n 0) (chain o i n len) = [].
Proof.
  apply filter_none. intros x Hx. unfold chain in Hx. apply in_app_or in Hx. destruct Hx as [Hx | [<- | []]].
  - apply in_map_iff in Hx. destruct Hx as (k & <- & _). rewrite hits_signal. lia.
  - rewrite hits_signal. lia.
Qed.
Lemma chain_right k : filter (hits (n + k) 1) (chain o i n len) = [].
Proof.
  apply filter_none. intros x Hx. unfold chain in Hx. apply in_app_or in Hx. destruct Hx as [Hx | [<- | []]].
  - apply in_map_iff in Hx. destruct Hx as (j & <- & _). rewrite hits_signal. lia.
  - rewrite hits_signal. lia.
Qed.
Lemma chain_ge d e : n + (len - 1) <= d -> filter (hits d e) (chain o i n len) = [].
Proof.
  intros H. apply filter_none. intros x Hx. unfold chain in Hx. apply in_app_or in Hx. destruct Hx as [Hx | [<- | []]].
  - apply in_map_iff in Hx. destruct Hx as (j & <- & Hj). apply in_seq in Hj. rewrite hits_signal. lia.
  - rewrite hits_signal. lia.
Qed.
Lemma chain_two d e : 2 <= e -> n <= d -> filter (hits d e) (chain o i n len) = [].
Proof.
  intros He H. apply filter_none. intros x Hx. unfold chain in Hx. apply in_app_or in Hx. destruct Hx as [Hx | [<- | []]].
  - apply in_map_iff in Hx. destruct Hx as (j & <- & Hj). apply in_seq in Hj. rewrite hits_signal. lia.
  - rewrite hits_signal. lia.
Qed.
End Chain.

(** ** One inlet *)
Section Step.
Context (G o i : nat) (w : work).
Let g := w.(pt).
Let n := w.(nxt).
Let cc := filter (hits o i) g.(conns).
Let len := length cc.
Context (Hfr : fresh_from g n) (Hlen : 2 <= len).
Let w' := expand_inlet G o i w.
Let g' := w'.(pt).

Lemma step_eq : w' = {| pt := {| kind_of := fun x =>
                  if between n (n + (len - 1)) x then adder
                  else if Nat.eqb x G then match g.(kind_of) G with Graph objs il ol => Graph (objs ++ seq n (len - 1)) il ol | k => k end
                  else g.(kind_of) x;
                conns := spread o i n 0 g.(conns) ++ chain o i n len |};
       ty := fun x => if between n (n + (len - 1)) x then Add else w.(ty) x;
       nxt := n + (len - 1) |}.
Proof.
  subst w'. unfold expand_inlet. rewrite signals_at. fold g. fold cc. fold len.
  destruct (Nat.leb_spec len 1); [lia | ]. reflexivity.
Qed.
Lemma step_o : o < n.
Proof.
  assert (exists c, In c cc) as [c Hc]. { subst len. destruct cc as [ | c l]; [cbn in Hlen; lia | exists c; now left]. }
  subst cc. apply filter_In in Hc. destruct Hc as [Hc Hh]. apply hits_iff in Hh.
  pose proof (fr_conn _ _ Hfr c Hc). lia.
Qed.
Lemma conns_lt c : In c g.(conns) -> c.(c_to) < n. Proof. intros H. now apply (fr_conn _ _ Hfr). Qed.
Lemma step_conns : g'.(conns) = spread o i n 0 g.(conns) ++ chain o i n len.
Proof. subst g'. rewrite step_eq. reflexivity. Qed.
Lemma at_other o2 i2 : o2 < n -> (o2, i2) <> (o, i) -> filter (hits o2 i2) g'.(conns) = filter (hits o2 i2) g.(conns).
Proof.
  intros H Hne. rewrite step_conns, filter_app, spread_other by (auto using step_o).
  rewrite chain_other by (auto using step_o). apply app_nil_r.
Qed.
Lemma at_self : filter (hits o i) g'.(conns) = [signal_conn (n + (len - 2)) 0 o i].
Proof. rewrite step_conns, filter_app, spread_self by apply step_o. now rewrite chain_self by (auto using step_o). Qed.
Lemma at_first : filter (hits n 0) g'.(conns) = match nth_error cc 0 with Some c => [retarget c (n, 0)] | None => [] end.
Proof.
  rewrite step_conns, filter_app, chain_first, app_nil_r by (auto using step_o).
  apply spread_new; auto using step_o, conns_lt.
Qed.
Lemma at_right k : filter (hits (n + k) 1) g'.(conns) = match nth_error cc (S k) with Some c => [retarget c (n + k, 1)] | None => [] end.
Proof.
  rewrite step_conns, filter_app, chain_right, app_nil_r by (auto using step_o).
  apply spread_new; auto using step_o, conns_lt. lia.
Qed.
Lemma at_left k : k < len - 2 -> filter (hits (n + S k) 0) g'.(conns) = [signal_conn (n + k) 0 (n + S k) 0].
Proof.
  intros H. rewrite step_conns, filter_app, chain_next by (auto using step_o).
  rewrite spread_none; [reflexivity | apply step_o | lia | apply conns_lt | ].
  intros j _. destruct j; cbn [summand]; intros F; injection F; lia.
Qed.
Lemma at_ge d e : n + (len - 1) <= d -> filter (hits d e) g'.(conns) = [].
Proof.
  intros H. rewrite step_conns, filter_app, chain_ge, app_nil_r by (auto using step_o).
  assert (E : e = 1 \/ e <> 1) by lia. destruct E as [-> | E].
  - rewrite spread_new with (j := S (d - n)); [ | apply step_o | lia | apply conns_lt | cbn [Nat.add summand]; f_equal; lia].
    fold cc. destruct (nth_error cc (S (d - n))) eqn:F; [ | reflexivity].
    assert (H0 : S (d - n) < length cc) by (apply nth_error_Some; congruence). fold len in H0. lia.
  - apply spread_none; [apply step_o | lia | apply conns_lt | ].
    intros j _. destruct j; cbn [summand]; intros F; injection F; lia.
Qed.
Lemma at_two d e : n <= d -> 2 <= e -> filter (hits d e) g'.(conns) = [].
Proof.
  intros H He. rewrite step_conns, filter_app, chain_two, app_nil_r by (auto using step_o).
  apply spread_none; [apply step_o | lia | apply conns_lt | ].
  intros j _. destruct j; cbn [summand]; intros F; injection F; lia.
Qed.
(** Never more connections than before, except one at the new inlets. *)
Lemma at_most x e : length (filter (hits x e) g'.(conns)) <= max 1 (length (filter (hits x e) g.(conns))).
Proof.
  destruct (Nat.lt_ge_cases x n) as [Hx | Hx].
  - destruct (Nat.eq_dec x o) as [-> | Hne].
    + destruct (Nat.eq_dec e i) as [-> | Hne]; [rewrite at_self; cbn [length]; lia | ]. rewrite at_other by (auto; congruence). lia.
    + rewrite at_other by (auto; congruence). lia.
  - destruct (Nat.lt_ge_cases x (n + (len - 1))) as [Hx2 | Hx2]; [ | rewrite at_ge by auto; cbn [length]; lia].
    destruct e as [ | [ | e]]; [ | | rewrite at_two by lia; cbn [length]; lia].
    + replace x with (n + (x - n)) by lia. destruct (x - n) as [ | k] eqn:E.
      * rewrite Nat.add_0_r, at_first. destruct (nth_error cc 0); cbn [length]; lia.
      * rewrite at_left by lia. cbn [length]; lia.
    + replace x with (n + (x - n)) by lia. rewrite at_right. destruct (nth_error cc (S (x - n))); cbn [length]; lia.
Qed.

Lemma step_kind x : x < n ->
  g'.(kind_of) x = if Nat.eqb x G then match g.(kind_of) G with Graph objs il ol => Graph (objs ++ seq n (len - 1)) il ol | k => k end
                   else g.(kind_of) x.
Proof.
  intros H. subst g'. rewrite step_eq. cbn [pt kind_of]. unfold between.
  replace (Nat.leb n x) with false by lia. reflexivity.
Qed.
Lemma step_kind_new x : n <= x < n + (len - 1) -> g'.(kind_of) x = adder.
Proof.
  intros H. subst g'. rewrite step_eq. cbn [pt kind_of]. unfold between.
  replace (Nat.leb n x && Nat.ltb x (n + (len - 1))) with true by lia. reflexivity.
Qed.
Lemma step_kind_ge x : n + (len - 1) <= x -> g'.(kind_of) x = Outlet.
Proof.
  intros H. subst g'. rewrite step_eq. cbn [pt kind_of]. unfold between.
  replace (Nat.ltb x (n + (len - 1))) with false by lia. rewrite andb_false_r.
  destruct (Nat.eqb_spec x G) as [-> | ]; [ | apply (fr_kind _ _ Hfr); lia].
  rewrite (fr_kind _ _ Hfr) by lia. reflexivity.
Qed.
Lemma step_nxt : nxt w' = n + (len - 1). Proof. rewrite step_eq. reflexivity. Qed.
Lemma step_ty x : ty w' x = if between n (nxt w') x then Add else ty w x.
Proof. rewrite step_nxt. rewrite step_eq. reflexivity. Qed.

Lemma spread_in l : forall k c, In c (spread o i n k l) ->
  exists c0, In c0 l /\ c_from c = c_from c0 /\ c_out c = c_out c0 /\ c_sig c = c_sig c0 /\
    ((hits o i c0 = false /\ c = c0) \/ (hits o i c0 = true /\ exists j, k <= j < k + length (filter (hits o i) l) /\ (c_to c, c_in c) = summand n j)).
Proof.
  induction l as [ | c0 l IH]; intros k c Hc; [destruct Hc | ]. cbn [spread filter] in *. destruct (hits o i c0) eqn:E.
  - destruct Hc as [<- | Hc].
    + exists c0. cbn [retarget c_from c_out c_sig c_to c_in length]. repeat split; [now left | ].
      right. split; [exact E | ]. exists k. split; [lia | now rewrite <- surjective_pairing].
    + destruct (IH _ _ Hc) as (c1 & H1 & H2 & H3 & H4 & H5). exists c1. repeat split; auto; [now right | ].
      destruct H5 as [H5 | (H5 & j & Hj & H6)]; [now left | right]. split; [exact H5 | ]. exists j. cbn [length]. split; [lia | exact H6].
  - destruct Hc as [<- | Hc].
    + exists c0. repeat split; [now left | ]. now left.
    + destruct (IH _ _ Hc) as (c1 & H1 & H2 & H3 & H4 & H5). exists c1. repeat split; auto. now right.
Qed.
Lemma step_fresh : fresh_from g' (nxt w').
Proof.
  rewrite step_nxt. constructor.
  - apply step_kind_ge.
  - intros c Hc. rewrite step_conns in Hc. apply in_app_or in Hc. destruct Hc as [Hc | Hc].
    + apply spread_in in Hc. destruct Hc as (c0 & H1 & H2 & _ & _ & H5). pose proof (fr_conn _ _ Hfr c0 H1) as F.
      split; [lia | ]. destruct H5 as [[_ ->] | (_ & j & Hj & H6)]; [lia | ]. fold cc in Hj. fold len in Hj.
      destruct j; cbn [summand] in H6; injection H6; lia.
    + pose proof step_o. unfold chain in Hc. apply in_app_or in Hc. destruct Hc as [Hc | [<- | []]].
      * apply in_map_iff in Hc. destruct Hc as (k & <- & Hk). apply in_seq in Hk. cbn [signal_conn c_from c_to]. lia.
      * cbn [signal_conn c_from c_to]. lia.
  - intros G2 objs il ol x HG Hx.
    assert (HG2 : exists objs2, g.(kind_of) G2 = Graph objs2 il ol /\ forall y, In y objs -> In y objs2 \/ y < n + (len - 1)).
    { destruct (Nat.lt_ge_cases G2 n) as [H | H].
      - rewrite step_kind in HG by auto. destruct (Nat.eqb_spec G2 G) as [-> | ]; [ | eauto].
        destruct (kind_of g G); inversion HG; subst; eexists; split; eauto.
        intros y Hy. apply in_app_or in Hy. destruct Hy as [Hy | Hy]; [now left | right]. apply in_seq in Hy. lia.
      - destruct (Nat.lt_ge_cases G2 (n + (len - 1))) as [H2 | H2]; [rewrite step_kind_new in HG by auto | rewrite step_kind_ge in HG by auto]; discriminate. }
    destruct HG2 as (objs2 & HG2 & Hin). apply in_app_or in Hx. destruct Hx as [Hx | Hx].
    + destruct (Hin _ Hx) as [Hx2 | Hx2]; [ | exact Hx2].
      pose proof (fr_lets _ _ Hfr _ _ _ _ x HG2 (in_or_app _ _ _ (or_introl Hx2))). lia.
    + pose proof (fr_lets _ _ Hfr _ _ _ _ x HG2 (in_or_app _ _ _ (or_intror Hx))). lia.
Qed.

(** *** Values *)
Section Values.
Context {A : Type} (add : A -> A -> A) (zero : A) (inp : nat -> A).
Definition psum (l : list A) : A := match l with [] => zero | v :: vs => fold_left add vs v end.
Lemma psum_snoc l x : l <> [] -> psum (l ++ [x]) = add (psum l) x.
Proof. destruct l as [ | v l]; [congruence | ]. intros _. cbn [app psum]. now rewrite fold_left_app. Qed.
Lemma inlet_sum_eq h V x e : inlet_sum add zero h V x e = psum (map (fun c => V c.(c_from) c.(c_out)) (filter (hits x e) h.(conns))).
Proof. unfold inlet_sum. rewrite signals_at. reflexivity. Qed.

Let vals (V : nat -> nat -> A) := map (fun c => V c.(c_from) c.(c_out)) cc.
Lemma vals_length V : length (vals V) = len. Proof. apply map_length. Qed.
Lemma vals_nth V k : k < len -> exists c, nth_error cc k = Some c /\ nth_error (vals V) k = Some (V c.(c_from) c.(c_out)).
Proof.
  intros H. destruct (nth_error cc k) as [c | ] eqn:E; [ | apply nth_error_None in E; fold len in E; lia].
  exists c. split; [reflexivity | ]. subst vals. cbn beta. now rewrite nth_error_map, E.
Qed.
Lemma firstn_snoc (l : list A) k x : nth_error l k = Some x -> firstn (S k) l = firstn k l ++ [x].
Proof.
  revert l. induction k as [ | k IH]; intros [ | y l] H; cbn [nth_error] in H; try discriminate.
  - now inversion H.
  - change (y :: firstn (S k) l = y :: (firstn k l ++ [x])). f_equal. now apply IH.
Qed.
(** The equations of the new adders *)
Definition adder_eqs (V : nat -> nat -> A) : Prop :=
  forall k j, k < len - 1 -> V (n + k) j = add (inlet_sum add zero g' V (n + k) 0) (inlet_sum add zero g' V (n + k) 1).
Lemma adder_values V : adder_eqs V -> forall k j, k < len - 1 -> V (n + k) j = psum (firstn (S (S k)) (vals V)).
Proof.
  intros H. induction k as [ | k IH]; intros j Hk; rewrite H by lia.
  - destruct (vals_nth V 0) as (c0 & E0 & F0); [lia | ]. destruct (vals_nth V 1) as (c1 & E1 & F1); [lia | ].
    rewrite !inlet_sum_eq. rewrite at_right. replace (n + 0) with n by lia. rewrite at_first, E0, E1. cbn [map psum fold_left retarget c_from c_out].
    rewrite (firstn_snoc _ 1 _ F1), (firstn_snoc _ 0 _ F0). reflexivity.
  - destruct (vals_nth V (S (S k))) as (c & E & F); [lia | ].
    rewrite !inlet_sum_eq. rewrite at_right, at_left by lia. rewrite E. cbn [map psum fold_left retarget c_from c_out signal_conn].
    rewrite (firstn_snoc _ (S (S k)) _ F), psum_snoc.
    + rewrite IH by lia. reflexivity.
    + intros F2. apply (f_equal (@length A)) in F2. rewrite firstn_length, vals_length in F2. cbn [length] in F2. lia.
Qed.
Lemma sums_agree V : adder_eqs V -> forall x e, x < n -> inlet_sum add zero g' V x e = inlet_sum add zero g V x e.
Proof.
  intros H x e Hx. rewrite !inlet_sum_eq.
  destruct (Nat.eq_dec x o) as [-> | Hne]; [ | rewrite at_other by (auto; congruence); reflexivity].
  destruct (Nat.eq_dec e i) as [-> | Hne]; [ | rewrite at_other by (auto; congruence); reflexivity].
  rewrite at_self. fold cc. fold (vals V). cbn [map psum fold_left signal_conn c_from c_out].
  rewrite adder_values by (auto; lia). rewrite firstn_all2; [reflexivity | ]. rewrite vals_length. lia.
Qed.

Context (f : nat -> list A -> nat -> A) (Hf : forall x a b j, n <= x < nxt w' -> f x [a; b] j = add a b).

Lemma sol_back V : solution add zero inp g' f V -> solution add zero inp g f V /\ forall x e, x < n -> inlet_sum add zero g' V x e = inlet_sum add zero g V x e.
Proof.
  intros (S1 & S2 & S3 & S4). rewrite step_nxt in Hf.
  assert (HA : adder_eqs V).
  { intros k j Hk. rewrite (S1 (n + k) true [Some false; Some false] [Some false]) by (apply step_kind_new; lia).
    apply Hf. lia. }
  assert (HS := sums_agree V HA). split; [ | exact HS].
  assert (Hlt : forall x, kind_of g x <> Outlet -> x < n).
  { intros x H. destruct (Nat.lt_ge_cases x n) as [ | Hge]; [assumption | ]. exfalso. apply H. apply (fr_kind _ _ Hfr x Hge). }
  assert (Hnb : forall x, kind_of g x <> Outlet -> (forall a b c, kind_of g x <> Graph a b c) -> kind_of g' x = kind_of g x).
  { intros x H1 H2. rewrite step_kind by auto. destruct (Nat.eqb_spec x G) as [-> | ]; [ | reflexivity].
    destruct (kind_of g G) eqn:E; try reflexivity. exfalso. eapply H2. reflexivity. }
  assert (HGr : forall x objs il ol, kind_of g x = Graph objs il ol -> exists objs', kind_of g' x = Graph objs' il ol).
  { intros x objs il ol H. rewrite step_kind by (apply Hlt; congruence). destruct (Nat.eqb_spec x G) as [-> | ]; [rewrite H | ]; eauto. }
  split; [ | split; [ | split]].
  - intros x sg ins outs Hk j. rewrite (S1 x sg ins outs) by (rewrite Hnb; congruence).
    f_equal. apply map_ext. intros e. apply HS. apply Hlt. congruence.
  - intros x ch Hk. apply S2. rewrite Hnb; congruence.
  - intros G2 objs il ol e x HG Hn Hk. destruct (HGr _ _ _ _ HG) as [objs' HG'].
    rewrite (S3 G2 objs' il ol e x) by (auto; rewrite Hnb; congruence). apply HS. apply Hlt. congruence.
  - intros G2 objs il ol e x HG Hn. destruct (HGr _ _ _ _ HG) as [objs' HG'].
    rewrite (S4 G2 objs' il ol e x) by auto. apply HS. apply (fr_lets _ _ Hfr G2 objs il ol x HG). apply in_or_app. right. apply in_or_app. right. now apply nth_error_In in Hn.
Qed.

Lemma sol_forth V : solution add zero inp g f V -> exists V', solution add zero inp g' f V' /\ forall x j, x < n -> V' x j = V x j.
Proof.
  intros (S1 & S2 & S3 & S4). rewrite step_nxt in Hf.
  set (V' := fun x j => if between n (n + (len - 1)) x then psum (firstn (S (S (x - n))) (vals V)) else V x j).
  assert (Hold : forall x j, x < n -> V' x j = V x j).
  { intros x j Hx. unfold V', between. replace (Nat.leb n x) with false by lia. reflexivity. }
  assert (Hsum : forall x e, inlet_sum add zero g V' x e = inlet_sum add zero g V x e).
  { intros x e. rewrite !inlet_sum_eq. f_equal. apply map_ext_in. intros c Hc. apply filter_In in Hc. apply Hold. now apply (fr_conn _ _ Hfr). }
  assert (Hv : vals V' = vals V).
  { subst vals. apply map_ext_in. intros c Hc. subst cc. apply filter_In in Hc. apply Hold. now apply (fr_conn _ _ Hfr). }
  assert (Hnew : forall k j, k < len - 1 -> V' (n + k) j = psum (firstn (S (S k)) (vals V))).
  { intros k j Hk. unfold V', between. replace (Nat.leb n (n + k) && Nat.ltb (n + k) (n + (len - 1))) with true by lia.
    now replace (n + k - n) with k by lia. }
  assert (HA : adder_eqs V').
  { intros k j Hk. rewrite Hnew by lia. rewrite !inlet_sum_eq, at_right. destruct k as [ | k].
    - destruct (vals_nth V 0) as (c0 & E0 & F0); [lia | ]. destruct (vals_nth V 1) as (c1 & E1 & F1); [lia | ].
      replace (n + 0) with n by lia. rewrite at_first, E0, E1. cbn [map psum fold_left retarget c_from c_out].
      rewrite (firstn_snoc _ 1 _ F1), (firstn_snoc _ 0 _ F0). cbn [firstn app psum fold_left].
      rewrite <- Hv in F0, F1. destruct (vals_nth V' 0) as (d0 & G0 & H0); [lia | ]. destruct (vals_nth V' 1) as (d1 & G1 & H1); [lia | ].
      f_equal; congruence.
    - destruct (vals_nth V (S (S k))) as (c & E & F); [lia | ]. rewrite at_left, E by lia. cbn [map psum fold_left retarget c_from c_out signal_conn].
      rewrite (firstn_snoc _ (S (S k)) _ F), psum_snoc.
      + rewrite Hnew by lia. f_equal. rewrite <- Hv in F. destruct (vals_nth V' (S (S k))) as (d & G0 & H0); [lia | ]. congruence.
      + intros F2. apply (f_equal (@length A)) in F2. rewrite firstn_length, vals_length in F2. cbn [length] in F2. lia. }
  assert (HS := sums_agree V' HA). exists V'. split; [ | exact Hold].
  assert (Hk2 : forall x, kind_of g' x <> Outlet -> (x < n \/ n <= x < n + (len - 1))).
  { intros x Hx. destruct (Nat.lt_ge_cases x (n + (len - 1))) as [H | H]; [lia | ]. exfalso. apply Hx. now apply step_kind_ge. }
  assert (Hback : forall x, x < n -> (forall a b c, kind_of g' x <> Graph a b c) -> kind_of g x = kind_of g' x).
  { intros x H1 H2. rewrite step_kind in * by auto. destruct (Nat.eqb_spec x G) as [-> | ]; [ | reflexivity].
    destruct (kind_of g G) eqn:E; try reflexivity. exfalso. eapply H2. reflexivity. }
  assert (HGr : forall x objs il ol, kind_of g' x = Graph objs il ol -> x < n /\ exists objs', kind_of g x = Graph objs' il ol).
  { intros x objs il ol H. destruct (Hk2 x) as [Hx | Hx]; [congruence | | rewrite step_kind_new in H by auto; discriminate].
    split; [exact Hx | ]. rewrite step_kind in H by auto. destruct (Nat.eqb_spec x G) as [-> | ]; [ | eauto].
    destruct (kind_of g G); inversion H; subst; eauto. }
  split; [ | split; [ | split]].
  - intros x sg ins outs Hk j. destruct (Hk2 x) as [Hx | Hx]; [congruence | | ].
    + rewrite Hold by auto. rewrite (S1 x sg ins outs) by (rewrite Hback; congruence).
      f_equal. apply map_ext. intros e. rewrite HS by auto. now rewrite Hsum.
    + rewrite step_kind_new in Hk by auto. inversion Hk; subst. cbn [sig_lets map]. 
      replace x with (n + (x - n)) by lia. rewrite HA by lia. symmetry. apply Hf. lia.
  - intros x ch Hk. destruct (Hk2 x) as [Hx | Hx]; [congruence | | rewrite step_kind_new in Hk by auto; discriminate].
    rewrite Hold by auto. apply S2. rewrite Hback; congruence.
  - intros G2 objs il ol e x HG Hn Hk. destruct (HGr _ _ _ _ HG) as [HG2 [objs' HG']].
    assert (x < n). { apply (fr_lets _ _ Hfr _ _ _ _ x HG'). apply in_or_app. right. apply in_or_app. left. now apply nth_error_In in Hn. }
    rewrite Hold by auto. rewrite HS, Hsum by auto. apply (S3 G2 objs' il ol e x); auto. rewrite Hback; congruence.
  - intros G2 objs il ol e x HG Hn. destruct (HGr _ _ _ _ HG) as [HG2 [objs' HG']].
    assert (x < n). { apply (fr_lets _ _ Hfr _ _ _ _ x HG'). apply in_or_app. right. apply in_or_app. right. now apply nth_error_In in Hn. }
    rewrite Hold by auto. rewrite HS, Hsum by auto. now apply (S4 G2 objs' il ol e x).
Qed.
End Values.
End Step.
