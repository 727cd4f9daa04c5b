(** The order computed by get_parent_order: it terminates on every graph, never repeats an object,
    and on graphs without feedback lists sources first. *)
From Coq Require Import Permutation.
From Verif Require Import GraphModel.

Lemma existsb_eqb o l : existsb (Nat.eqb o) l = true <-> In o l.
Proof.
  rewrite existsb_exists. split.
  - intros (x & Hx & E). apply Nat.eqb_eq in E. subst. exact Hx.
  - intros H. exists o. split; [exact H | apply Nat.eqb_refl].
Qed.
Lemma existsb_eqb_false o l : existsb (Nat.eqb o) l = false <-> ~ In o l.
Proof.
  rewrite <- existsb_eqb. destruct (existsb _ _); split; congruence.
Qed.

Lemma in_at_inlet g o i c : In c (at_inlet g o i) <-> In c g.(conns) /\ c.(c_to) = o /\ c.(c_in) = i.
Proof. unfold at_inlet. rewrite filter_In, andb_true_iff, !Nat.eqb_eq. tauto. Qed.
Lemma in_at_outlet g o i c : In c (at_outlet g o i) <-> In c g.(conns) /\ c.(c_from) = o /\ c.(c_out) = i.
Proof. unfold at_outlet. rewrite filter_In, andb_true_iff, !Nat.eqb_eq. tauto. Qed.
Lemma in_in_connections g o c :
  In c (in_connections g o) <-> In c g.(conns) /\ c.(c_to) = o /\ c.(c_in) < num_inlets g o.
Proof.
  unfold in_connections. rewrite in_flat_map. split.
  - intros (i & Hi & Hc). apply in_seq in Hi. apply in_at_inlet in Hc as (H1 & H2 & H3). subst. repeat split; [exact H1 | lia].
  - intros (H1 & H2 & H3). exists c.(c_in). split; [apply in_seq; lia | apply in_at_inlet; auto].
Qed.

(** The loop over the parents, as a function of its own *)
Fixpoint parents_loop (rec : nat -> list nat -> option (list nat * list nat)) (cs : list conn) (acc seen : list nat) : option (list nat * list nat) :=
  match cs with
  | [] => Some (acc, seen)
  | c :: cs' =>
      match rec c.(c_from) seen with
      | Some (l, seen') => parents_loop rec cs' (acc ++ l) seen'
      | None => None
      end
  end.
Lemma parent_order_S k g o seen :
  parent_order (S k) g o seen =
    if existsb (Nat.eqb o) seen then Some ([], seen)
    else match parents_loop (parent_order k g) (in_connections g o) [] (o :: seen) with
         | Some (l, seen') => Some (l ++ [o], seen')
         | None => None
         end.
Proof.
  cbn [parent_order]. destruct (existsb (Nat.eqb o) seen); [reflexivity|].
  assert (L : forall cs acc sn,
    (fix parents (cs : list conn) (acc : list nat) (seen : list nat) : option (list nat * list nat) :=
          match cs with
          | [] => Some (acc, seen)
          | c :: cs' =>
              match parent_order k g c.(c_from) seen with
              | Some (l, seen') => parents cs' (acc ++ l) seen'
              | None => None
              end
          end) cs acc sn = parents_loop (parent_order k g) cs acc sn).
  { induction cs as [| c cs IH]; intros acc sn; cbn; [reflexivity|].
    destruct (parent_order k g (c_from c) sn) as [[l s']|]; [apply IH | reflexivity]. }
  rewrite L. reflexivity.
Qed.

Lemma NoDup_app_intro {A} (l1 l2 : list A) :
  NoDup l1 -> NoDup l2 -> (forall x, In x l1 -> ~ In x l2) -> NoDup (l1 ++ l2).
Proof.
  induction l1 as [| a l1 IH]; intros N1 N2 D; cbn; [exact N2|].
  inversion N1; subst. constructor.
  - rewrite in_app_iff. intros [H|H]; [tauto | exact (D a (or_introl eq_refl) H)].
  - apply IH; auto. intros x Hx. apply D. now right.
Qed.
Lemma NoDup_app_elim {A} (l1 l2 : list A) :
  NoDup (l1 ++ l2) -> NoDup l1 /\ NoDup l2 /\ (forall x, In x l1 -> ~ In x l2).
Proof.
  induction l1 as [| a l1 IH]; cbn; intros N; [split; [constructor | split; [exact N | intros x []]]|].
  inversion N as [| ? ? Na N']; subst. destruct (IH N') as (N1 & N2 & D). split; [|split; [exact N2|]].
  - constructor; [|exact N1]. intros H. apply Na. apply in_or_app. now left.
  - intros x [<- | Hx]; [|now apply D]. intros H. apply Na. apply in_or_app. now right.
Qed.

Lemma exists_last_or_nil {A} (l : list A) : l = [] \/ exists l' x, l = l' ++ [x].
Proof. destruct l as [| a l]; [now left|]. right. destruct (exists_last (l := a :: l)) as (l' & x & E); [discriminate | eauto]. Qed.

Lemma parents_loop_acc rec cs acc seen :
  parents_loop rec cs acc seen =
  match parents_loop rec cs [] seen with Some (l, s') => Some (acc ++ l, s') | None => None end.
Proof.
  revert acc seen. induction cs as [| c cs IH]; intros acc seen; cbn; [now rewrite app_nil_r|].
  destruct (rec (c_from c) seen) as [[l s']|]; [|reflexivity].
  rewrite IH, (IH l). destruct (parents_loop rec cs [] s') as [[r s'']|]; [now rewrite app_assoc | reflexivity].
Qed.

(** How many objects of [U] are not yet marked *)
Definition left_over (U seen : list nat) : nat := length (filter (fun x => negb (existsb (Nat.eqb x) seen)) U).
Lemma left_over_le U s1 s2 : incl s1 s2 -> left_over U s2 <= left_over U s1.
Proof.
  intros I. unfold left_over. induction U as [| x U' IH]; cbn; [lia|].
  destruct (existsb (Nat.eqb x) s1) eqn:E1; cbn.
  - assert (E2 : existsb (Nat.eqb x) s2 = true) by (apply existsb_eqb; apply I; now apply existsb_eqb).
    rewrite E2. exact IH.
  - destruct (existsb (Nat.eqb x) s2); cbn; lia.
Qed.
Lemma left_over_cons U o seen : In o U -> ~ In o seen -> left_over U (o :: seen) < left_over U seen.
Proof.
  intros H N. unfold left_over. induction U as [| x U' IH]; [destruct H|].
  assert (M : left_over U' (o :: seen) <= left_over U' seen) by (apply left_over_le; intros y Hy; now right).
  unfold left_over in M. cbn [filter existsb] in *. destruct H as [-> | H].
  - rewrite Nat.eqb_refl. cbn [orb negb]. apply existsb_eqb_false in N. rewrite N. cbn [negb length]. lia.
  - specialize (IH H). destruct (Nat.eqb x o); destruct (existsb (Nat.eqb x) seen); cbn [orb negb length]; lia.
Qed.
Lemma left_over_nil U : left_over U [] = length U.
Proof. unfold left_over. cbn [existsb negb]. induction U; cbn; congruence. Qed.

(** ** Facts that hold for every graph, with or without feedback *)
Section Order.
Variable g : patch.
Variable U : list nat.
Hypothesis closed : forall o c, In o U -> In c (in_connections g o) -> In c.(c_from) U.

(** [l] was added between [seen] and [seen'] *)
Definition fresh_part (seen l seen' : list nat) : Prop :=
  NoDup l /\ (forall x, In x l -> ~ In x seen /\ In x U) /\ (forall x, In x seen' <-> In x seen \/ In x l).

Lemma fresh_trans s1 l1 s2 l2 s3 :
  fresh_part s1 l1 s2 -> fresh_part s2 l2 s3 -> fresh_part s1 (l1 ++ l2) s3.
Proof.
  intros (N1 & F1 & S1) (N2 & F2 & S2). split; [|split].
  - apply NoDup_app_intro; auto.
    intros x H1 H2. apply F2 in H2 as [H2 _]. apply H2. apply S1. auto.
  - intros x Hx. apply in_app_or in Hx as [Hx | Hx]; [auto|].
    apply F2 in Hx as [H1 H2]. split; [|exact H2]. intros H3. apply H1, S1. auto.
  - intros x. rewrite S2, S1, in_app_iff. tauto.
Qed.
Lemma fresh_nil s : fresh_part s [] s.
Proof. split; [constructor | split]; [intros x [] | intros x; cbn; tauto]. Qed.
Lemma fresh_incl s l s' : fresh_part s l s' -> incl s s'.
Proof. intros (_ & _ & H) x Hx. apply H. auto. Qed.

Lemma parent_order_total fuel : forall o seen, In o U -> left_over U seen < fuel ->
  exists l seen', parent_order fuel g o seen = Some (l, seen') /\ fresh_part seen l seen' /\ In o seen'.
Proof.
  induction fuel as [| k IH]; intros o seen Ho Hf; [lia|].
  rewrite parent_order_S. destruct (existsb (Nat.eqb o) seen) eqn:E.
  - apply existsb_eqb in E. exists [], seen. split; [reflexivity | split; [apply fresh_nil | exact E]].
  - apply existsb_eqb_false in E.
    pose proof (left_over_cons U o seen Ho E) as Hl.
    assert (L : forall cs sn, (forall c, In c cs -> In c.(c_from) U) -> left_over U sn < k ->
      exists l s', parents_loop (parent_order k g) cs [] sn = Some (l, s') /\ fresh_part sn l s').
    { induction cs as [| c cs IHc]; intros sn Hcs Hsn; cbn [parents_loop].
      - exists [], sn. split; [reflexivity | apply fresh_nil].
      - destruct (IH c.(c_from) sn) as (l & s1 & E1 & F1 & _); [apply Hcs; now left | exact Hsn |].
        rewrite E1, parents_loop_acc.
        destruct (IHc s1) as (l2 & s2 & E2 & F2).
        + intros c' Hc'. apply Hcs. now right.
        + pose proof (left_over_le U sn s1 (fresh_incl _ _ _ F1)). lia.
        + rewrite E2. exists (l ++ l2), s2. split; [reflexivity | now apply (fresh_trans sn l s1)]. }
    destruct (L (in_connections g o) (o :: seen)) as (l & s' & E1 & F1).
    + intros c Hc. now apply (closed o).
    + lia.
    + rewrite E1. exists (l ++ [o]), s'. split; [reflexivity|].
      destruct F1 as (N1 & F1 & S1). split; [split; [|split]|].
      * apply NoDup_app_intro; [exact N1 | constructor; [intros [] | constructor] |].
        intros x Hx [<- | []]. apply F1 in Hx as [Hx _]. apply Hx. now left.
      * intros x Hx. apply in_app_or in Hx as [Hx | [<- | []]]; [|auto].
        apply F1 in Hx as [H1 H2]. split; [|exact H2]. intros H3. apply H1. now right.
      * intros x. rewrite S1, in_app_iff. cbn. tauto.
      * apply S1. left. now left.
Qed.

Lemma order_leaves_total fuel ls : forall seen, incl ls U -> left_over U seen < fuel ->
  exists l seen', order_leaves fuel g ls seen = Some l /\ fresh_part seen l seen' /\ incl ls seen'.
Proof.
  induction ls as [| o ls IH]; intros seen Hi Hf; cbn [order_leaves].
  - exists [], seen. split; [reflexivity | split; [apply fresh_nil | intros x []]].
  - destruct (parent_order_total fuel o seen) as (l & s1 & E1 & F1 & I1); [apply Hi; now left | exact Hf |].
    rewrite E1. destruct (IH s1) as (l2 & s2 & E2 & F2 & I2).
    + intros x Hx. apply Hi. now right.
    + pose proof (left_over_le U seen s1 (fresh_incl _ _ _ F1)). lia.
    + rewrite E2. exists (l ++ l2), s2. split; [reflexivity | split; [now apply (fresh_trans seen l s1)|]].
      intros x [<- | Hx]; [now apply (fresh_incl _ _ _ F2) | now apply I2].
Qed.

(** ** Graphs without feedback *)
Variable rank : nat -> nat.
Hypothesis acyclic : forall o c, In o U -> In c (in_connections g o) -> rank c.(c_from) < rank o.

(** sources first *)
Definition sources_first (l : list nat) : Prop :=
  forall a o b, l = a ++ o :: b -> forall c, In c (in_connections g o) -> In c.(c_from) a.

Lemma sources_first_snoc l o :
  sources_first l -> (forall c, In c (in_connections g o) -> In c.(c_from) l) -> sources_first (l ++ [o]).
Proof.
  intros H Ho a o' b E c Hc.
  destruct (exists_last_or_nil b) as [-> | (b' & x & ->)].
  - apply app_inj_tail in E as [-> ->]. now apply Ho.
  - rewrite app_comm_cons, app_assoc in E. apply app_inj_tail in E as [-> _].
    now apply (H a o' b' eq_refl).
Qed.

Lemma parent_order_sorted fuel : forall o seen l seen' fin, In o U ->
  parent_order fuel g o seen = Some (l, seen') ->
  (forall u, In u seen -> In u fin \/ rank o < rank u) ->
  sources_first fin ->
  sources_first (fin ++ l) /\ In o (fin ++ l) /\ (forall x, In x seen' <-> In x seen \/ In x l).
Proof.
  induction fuel as [| k IH]; intros o seen l seen' fin Ho E Hs Hf; [discriminate|].
  rewrite parent_order_S in E. destruct (existsb (Nat.eqb o) seen) eqn:X.
  - injection E as <- <-. rewrite app_nil_r. apply existsb_eqb in X. split; [exact Hf|]. split.
    + destruct (Hs o X) as [H | H]; [exact H | lia].
    + intros x. cbn. tauto.
  - apply existsb_eqb_false in X.
    destruct (parents_loop (parent_order k g) (in_connections g o) [] (o :: seen)) as [[r s']|] eqn:E1; [|discriminate].
    injection E as <- <-.
    assert (L : forall cs sn r s' fin,
      (forall c, In c cs -> In c.(c_from) U /\ rank c.(c_from) < rank o) ->
      parents_loop (parent_order k g) cs [] sn = Some (r, s') ->
      (forall u, In u sn -> In u fin \/ rank o <= rank u) ->
      sources_first fin ->
      sources_first (fin ++ r) /\ (forall c, In c cs -> In c.(c_from) (fin ++ r)) /\ (forall x, In x s' <-> In x sn \/ In x r)).
    { clear - IH. induction cs as [| c cs IHc]; intros sn r s' fin Hcs E Hs Hf; cbn [parents_loop] in E.
      - injection E as <- <-. rewrite app_nil_r. split; [exact Hf | split; [intros c [] | intros x; cbn; tauto]].
      - destruct (parent_order k g (c_from c) sn) as [[l1 s1]|] eqn:E1; [|discriminate].
        rewrite parents_loop_acc in E. destruct (parents_loop (parent_order k g) cs [] s1) as [[r2 s2]|] eqn:E2; [|discriminate].
        injection E as <- <-. cbn [app] in *.
        destruct (Hcs c (or_introl eq_refl)) as [Uc Rc].
        destruct (IH _ _ _ _ fin Uc E1) as (F1 & I1 & S1).
        + intros u Hu. destruct (Hs u Hu) as [H | H]; [now left | right; lia].
        + exact Hf.
        + destruct (IHc s1 r2 s2 (fin ++ l1)) as (F2 & I2 & S2).
          * intros c' Hc'. apply Hcs. now right.
          * exact E2.
          * intros u Hu. apply S1 in Hu as [Hu | Hu].
            -- destruct (Hs u Hu) as [H | H]; [left; apply in_or_app; now left | now right].
            -- left. apply in_or_app. now right.
          * exact F1.
          * rewrite <- app_assoc in *. split; [exact F2|]. split.
            -- intros c' [<- | Hc']; [|now apply I2]. rewrite app_assoc. apply in_or_app. now left.
            -- intros x. rewrite S2, S1, in_app_iff. tauto. }
    destruct (L (in_connections g o) (o :: seen) r s' fin) as (F & I & S).
    + intros c Hc. split; [now apply (closed o) | now apply (acyclic o)].
    + exact E1.
    + intros u [<- | Hu]; [right; lia|]. destruct (Hs u Hu) as [H | H]; [now left | right; lia].
    + exact Hf.
    + rewrite app_assoc. split; [now apply sources_first_snoc|]. split.
      * apply in_or_app. right. now left.
      * intros x. rewrite S, in_app_iff. cbn. tauto.
Qed.

Lemma order_leaves_sorted fuel ls : forall seen l fin, incl ls U ->
  order_leaves fuel g ls seen = Some l ->
  (forall u, In u seen -> In u fin) ->
  sources_first fin ->
  sources_first (fin ++ l) /\ (forall o, In o ls -> In o (fin ++ l)).
Proof.
  induction ls as [| o ls IH]; intros seen l fin Hi E Hs Hf; cbn [order_leaves] in E.
  - injection E as <-. rewrite app_nil_r. split; [exact Hf | intros o []].
  - destruct (parent_order fuel g o seen) as [[r s1]|] eqn:E1; [|discriminate].
    destruct (order_leaves fuel g ls s1) as [r'|] eqn:E2; [|discriminate].
    injection E as <-.
    destruct (parent_order_sorted fuel o seen r s1 fin) as (F1 & I1 & S1); auto; [apply Hi; now left|].
    destruct (IH s1 r' (fin ++ r)) as (F2 & I2); auto.
    + intros x Hx. apply Hi. now right.
    + intros u Hu. apply in_or_app. apply S1 in Hu as [Hu | Hu]; [left; auto | now right].
    + rewrite <- app_assoc in *. split; [exact F2|].
      intros x [<- | Hx]; [|auto]. rewrite app_assoc. apply in_or_app. now left.
Qed.

(** Every object is above a leaf. *)
Hypothesis inside : forall c, In c g.(conns) -> In c.(c_from) U -> In c.(c_to) U /\ c.(c_in) < num_inlets g c.(c_to).
Lemma not_leaf o : is_leaf g o = false -> exists c, In c g.(conns) /\ c.(c_from) = o.
Proof.
  unfold is_leaf. intros E. apply not_true_iff_false in E. rewrite forallb_forall in E.
  destruct (existsb (fun c => Nat.eqb c.(c_from) o) g.(conns)) eqn:X.
  - apply existsb_exists in X as (c & Hc & E2). apply Nat.eqb_eq in E2. eauto.
  - exfalso. apply E. intros i Hi. destruct (at_outlet g o i) as [| c l] eqn:Ho; [reflexivity|].
    assert (Hc : In c (at_outlet g o i)) by (rewrite Ho; now left).
    apply in_at_outlet in Hc as (H1 & H2 & _).
    assert (existsb (fun c => Nat.eqb c.(c_from) o) g.(conns) = true) by (apply existsb_exists; exists c; split; [auto | now apply Nat.eqb_eq]).
    congruence.
Qed.
Lemma max_rank : exists M, forall o, In o U -> rank o <= M.
Proof.
  clear. induction U as [| x l IH]; [exists 0; intros o []|].
  destruct IH as [M H]. exists (Nat.max (rank x) M). intros o [<- | Ho]; [lia | specialize (H o Ho); lia].
Qed.
Lemma all_ordered l : sources_first l -> (forall o, In o U -> is_leaf g o = true -> In o l) -> forall o, In o U -> In o l.
Proof.
  intros Hs Hl. destruct max_rank as [M HM].
  assert (L : forall n o, In o U -> M - rank o <= n -> In o l).
  { induction n as [| n IH]; intros o Ho Hn.
    - destruct (is_leaf g o) eqn:E; [auto|]. destruct (not_leaf o E) as (c & Hc & <-).
      destruct (inside c Hc Ho) as [H1 H2].
      assert (In c (in_connections g (c_to c))) as Hi by (apply in_in_connections; auto).
      pose proof (acyclic _ _ H1 Hi). pose proof (HM _ H1). lia.
    - destruct (is_leaf g o) eqn:E; [auto|]. destruct (not_leaf o E) as (c & Hc & <-).
      destruct (inside c Hc Ho) as [H1 H2].
      assert (In c (in_connections g (c_to c))) as Hi by (apply in_in_connections; auto).
      pose proof (acyclic _ _ H1 Hi). pose proof (HM _ H1).
      assert (In (c_to c) l) as Hin by (apply IH; [exact H1 | lia]).
      apply in_split in Hin as (a & b & ->). apply in_or_app. left. exact (Hs a _ b eq_refl c Hi). }
  intros o Ho. exact (L _ o Ho (Nat.le_refl _)).
Qed.
End Order.

Lemma full_order_terminates_lemma g objs :
  (forall o c, In o objs -> In c (in_connections g o) -> In c.(c_from) objs) ->
  exists l, full_order g objs = Some l /\ NoDup l /\ incl l objs.
Proof.
  intros C. unfold full_order.
  destruct (order_leaves_total g objs C (S (length objs)) (filter (is_leaf g) objs) []) as (l & s' & E & (N & F & _) & _).
  - intros x Hx. apply filter_In in Hx as [Hx _]. exact Hx.
  - rewrite left_over_nil. lia.
  - exists l. split; [exact E | split; [exact N|]]. intros x Hx. now apply F.
Qed.
Lemma full_order_sorted_lemma g objs rank l :
  (forall o c, In o objs -> In c (in_connections g o) -> In c.(c_from) objs) ->
  (forall c, In c g.(conns) -> In c.(c_from) objs -> In c.(c_to) objs /\ c.(c_in) < num_inlets g c.(c_to)) ->
  (forall o c, In o objs -> In c (in_connections g o) -> rank c.(c_from) < rank o) ->
  full_order g objs = Some l ->
  sources_first g l /\ (forall o, In o objs -> In o l).
Proof.
  intros C I R E. unfold full_order in E.
  destruct (order_leaves_sorted g objs C rank R (S (length objs)) (filter (is_leaf g) objs) [] l []) as [S H].
  - intros x Hx. apply filter_In in Hx as [Hx _]. exact Hx.
  - exact E.
  - intros u [].
  - intros a o b X. symmetry in X. apply app_eq_nil in X as [_ X]. discriminate.
  - cbn [app] in *. split; [exact S|].
    apply (all_ordered g objs rank R I); [exact S|]. intros o Ho Hl. apply H. now apply filter_In.
Qed.
