From Coq Require Import ZifyBool.
From Verif Require Import FlowModel FlowSpec.

Lemma conn_eqb_spec a b : reflect (a = b) (conn_eqb a b).
Proof.
  destruct a as [f o t i k], b as [f' o' t' i' k']. unfold conn_eqb. cbn [c_from c_out c_to c_in c_ctl].
  destruct (Z.eqb_spec f f'), (Nat.eqb_spec o o'), (Z.eqb_spec t t'), (Nat.eqb_spec i i'), (Bool.eqb_spec k k'); cbn [andb]; constructor; congruence.
Qed.
Notation cnt := (count_occ conn_dec).
Definition one (c x : conn) : nat := if conn_dec c x then 1%nat else O.

Lemma remove1_split c l : In c l -> exists l1 l2, l = l1 ++ c :: l2 /\ ~ In c l1 /\ remove1 c l = Some (l1 ++ l2).
Proof.
  induction l as [|x l IH]; intros H; [destruct H|]. cbn [remove1]. destruct (conn_eqb_spec x c) as [-> | N].
  - exists [], l. repeat split. intros [].
  - destruct IH as (l1 & l2 & -> & Hn & E); [destruct H; [congruence|assumption]|]. exists (x :: l1), l2. rewrite E. repeat split.
    intros [C|C]; contradiction.
Qed.
Lemma replace1_split c n l : In c l -> exists l1 l2, l = l1 ++ c :: l2 /\ ~ In c l1 /\ replace1 c n l = Some (l1 ++ n ++ l2).
Proof.
  induction l as [|x l IH]; intros H; [destruct H|]. cbn [replace1]. destruct (conn_eqb_spec x c) as [-> | N].
  - exists [], l. repeat split. intros [].
  - destruct IH as (l1 & l2 & -> & Hn & E); [destruct H; [congruence|assumption]|]. exists (x :: l1), l2. rewrite E. repeat split.
    intros [C|C]; contradiction.
Qed.
Lemma cnt_split l1 c l2 x : cnt (l1 ++ c :: l2) x = (cnt (l1 ++ l2) x + one c x)%nat.
Proof. rewrite !count_occ_app. cbn [count_occ]. unfold one. destruct (conn_dec c x); lia. Qed.
Lemma cnt_in l x : In x l <-> (0 < cnt l x)%nat.
Proof. rewrite (count_occ_In conn_dec). lia. Qed.

Lemma set_let_same f o i l : set_let f o i l o i = l.
Proof. unfold set_let. rewrite Z.eqb_refl, Nat.eqb_refl. reflexivity. Qed.
Lemma set_let_other f o i l o' i' : (o', i') <> (o, i) -> set_let f o i l o' i' = f o' i'.
Proof. intros N. unfold set_let. destruct (Z.eqb_spec o' o), (Nat.eqb_spec i' i); cbn [andb]; try reflexivity. subst. congruence. Qed.
Lemma pair_dec (a b : Z * nat) : {a = b} + {a <> b}.
Proof. decide equality; auto using Nat.eq_dec, Z.eq_dec. Qed.

Section Bookkeeping.
Context (nin nout : Z -> nat).
Notation consistent := (consistent nin nout).

Lemma in_both g c : consistent g -> (In c (g_ins g (c_to c) (c_in c)) <-> In c (g_outs g (c_from c) (c_out c))).
Proof. intros (_ & _ & H & _). rewrite !cnt_in, H. tauto. Qed.

(** Adding a list of connections at their target ends. *)
Definition at_in (o : Z) (i : nat) (x : conn) : bool := (c_to x =? o) && (c_in x =? i)%nat.
Definition at_out (o : Z) (i : nat) (x : conn) : bool := (c_from x =? o) && (c_out x =? i)%nat.
Lemma add_ins_fold n : forall g, exists g', gfold (fun x => add_connection (c_to x) x) n (Some g) = Some g' /\ g_outs g' = g_outs g /\
  forall o i, g_ins g' o i = g_ins g o i ++ filter (at_in o i) n.
Proof.
  induction n as [|x n IH]; intros g.
  - exists g. repeat split. intros. cbn [filter]. rewrite app_nil_r. reflexivity.
  - unfold gfold. cbn [fold_left gbind]. unfold add_connection at 2. rewrite Z.eqb_refl. cbn [with_ins option_map].
    destruct (IH (mkGraph (set_let (g_ins g) (c_to x) (c_in x) (g_ins g (c_to x) (c_in x) ++ [x])) (g_outs g))) as (g' & E & EO & EI).
    unfold gfold in E. exists g'. split; [exact E|]. split; [exact EO|]. intros o i. rewrite EI. cbn [g_ins filter]. unfold at_in at 2.
    destruct (pair_dec (o, i) (c_to x, c_in x)) as [Eq|N].
    + injection Eq as -> ->. rewrite set_let_same, Z.eqb_refl, Nat.eqb_refl. cbn [andb]. rewrite <- app_assoc. reflexivity.
    + rewrite set_let_other by exact N. destruct (Z.eqb_spec (c_to x) o), (Nat.eqb_spec (c_in x) i); cbn [andb]; try reflexivity. subst. congruence.
Qed.
Lemma cnt_filter p n x : cnt (filter p n) x = if p x then cnt n x else O.
Proof.
  induction n as [|y n IH]; cbn [filter count_occ]; [destruct (p x); reflexivity|].
  destruct (p y) eqn:Ep; cbn [count_occ]; destruct (conn_dec y x) as [-> | N]; rewrite ?IH, ?Ep; try reflexivity; destruct (p x); congruence.
Qed.

Lemma update_source g c n : consistent g -> In c (g_outs g (c_from c) (c_out c)) -> c_from c <> c_to c ->
  (forall x, In x n -> c_from x = c_from c /\ c_out x = c_out c /\ (c_in x < nin (c_to x))%nat) ->
  exists g' l1 l2, update_connection (c, n) g = Some g' /\ consistent g' /\ g_outs g (c_from c) (c_out c) = l1 ++ c :: l2 /\ ~ In c l1 /\
    g_outs g' = set_let (g_outs g) (c_from c) (c_out c) (l1 ++ n ++ l2).
Proof.
  intros HC Hin Hself Hn. pose proof HC as (W1 & W2 & W3 & W4).
  assert (Hini : In c (g_ins g (c_to c) (c_in c))) by (apply in_both; assumption).
  destruct (replace1_split c n _ Hin) as (l1 & l2 & El & Hl1 & Er).
  destruct (remove1_split c _ Hini) as (m1 & m2 & Em & Hm1 & Emr).
  set (g1 := mkGraph (set_let (g_ins g) (c_to c) (c_in c) (m1 ++ m2)) (set_let (g_outs g) (c_from c) (c_out c) (l1 ++ n ++ l2))).
  destruct (add_ins_fold n g1) as (g' & E & EO & EI). exists g', l1, l2.
  assert (Hupd : update_connection (c, n) g = Some g').
  { unfold update_connection. destruct n as [|x n'].
    - unfold disconnect_objects, remove_connection at 1. assert (c_to c =? c_from c = false) as -> by lia. rewrite Z.eqb_refl.
      assert (Er2 : remove1 c (g_outs g (c_from c) (c_out c)) = Some (l1 ++ l2)).
      { rewrite El. clear -Hl1. induction l1 as [|y l1 IH]; cbn [app remove1]; [destruct (conn_eqb_spec c c); [reflexivity|congruence]|].
        destruct (conn_eqb_spec y c) as [-> | N]; [exfalso; apply Hl1; left; reflexivity|]. rewrite IH; [reflexivity|]. intros C. apply Hl1. right. exact C. }
      rewrite Er2. cbn [with_outs option_map gbind]. unfold remove_connection. rewrite Z.eqb_refl. cbn [g_ins]. rewrite Emr. cbn [with_ins option_map g_outs g_ins].
      exact E.
    - assert (forallb (fun y => c_from c =? c_from y) (x :: n') = true) as ->.
      { apply forallb_forall. intros y Hy. destruct (Hn y Hy) as (A & _). lia. }
      unfold replace_connection. rewrite Z.eqb_refl, Er. cbn [with_outs option_map gbind]. unfold remove_connection. rewrite Z.eqb_refl. cbn [g_ins].
      rewrite Emr. exact E. }
  split; [exact Hupd|]. split; [|split; [exact El|split; [exact Hl1|exact EO]]].
  assert (Hins : forall o i x, In x (g_ins g' o i) -> c_to x = o /\ c_in x = i).
  { intros o i x Hx. rewrite EI in Hx. apply in_app_or in Hx as [Hx|Hx].
    - cbn [g_ins] in Hx. unfold g1 in Hx. cbn [g_ins] in Hx. destruct (pair_dec (o, i) (c_to c, c_in c)) as [Eq|N].
      + injection Eq as -> ->. rewrite set_let_same in Hx. apply W1. rewrite Em. apply in_app_or in Hx as [Hx|Hx]; apply in_or_app; [left|right; right]; exact Hx.
      + rewrite set_let_other in Hx by exact N. apply W1. exact Hx.
    - apply filter_In in Hx as (_ & Hx). unfold at_in in Hx. lia. }
  assert (Hnew : forall o i x, In x (g_outs g' o i) -> (In x (g_outs g o i)) \/ (In x n /\ o = c_from c /\ i = c_out c)).
  { intros o i x Hx. rewrite EO in Hx. cbn [g1 g_outs] in Hx. destruct (pair_dec (o, i) (c_from c, c_out c)) as [Eq|N].
    - injection Eq as -> ->. rewrite set_let_same in Hx. rewrite El. apply in_app_or in Hx as [Hx|Hx]; [left; apply in_or_app; left; exact Hx|].
      apply in_app_or in Hx as [Hx|Hx]; [right; auto|]. left. apply in_or_app. right. right. exact Hx.
    - rewrite set_let_other in Hx by exact N. left. exact Hx. }
  split; [exact Hins|]. split; [|split].
  - intros o i x Hx. destruct (Hnew o i x Hx) as [A|(A & -> & ->)]; [apply W2; exact A|]. destruct (Hn x A) as (B1 & B2 & _). auto.
  - intros x. rewrite EI, EO, count_occ_app, cnt_filter. unfold at_in. rewrite Z.eqb_refl, Nat.eqb_refl. cbn [andb g1 g_ins g_outs].
    assert (A1 : (cnt (set_let (g_ins g) (c_to c) (c_in c) (m1 ++ m2) (c_to x) (c_in x)) x + one c x)%nat = cnt (g_ins g (c_to x) (c_in x)) x).
    { destruct (pair_dec (c_to x, c_in x) (c_to c, c_in c)) as [Eq|N].
      - injection Eq as E1 E2. rewrite E1, E2, set_let_same, Em, cnt_split. reflexivity.
      - rewrite set_let_other by exact N. unfold one. destruct (conn_dec c x) as [<- | _]; [congruence|]. lia. }
    assert (A2 : (cnt (set_let (g_outs g) (c_from c) (c_out c) (l1 ++ n ++ l2) (c_from x) (c_out x)) x + one c x)%nat = (cnt (g_outs g (c_from x) (c_out x)) x + cnt n x)%nat).
    { destruct (pair_dec (c_from x, c_out x) (c_from c, c_out c)) as [Eq|N].
      - injection Eq as E1 E2. rewrite E1, E2, set_let_same, El, cnt_split. rewrite !count_occ_app. lia.
      - rewrite set_let_other by exact N. unfold one. destruct (conn_dec c x) as [<- | _]; [congruence|].
        assert (cnt n x = O) as ->; [|lia]. apply count_occ_not_In. intros C. destruct (Hn x C) as (B1 & B2 & _). apply N. congruence. }
    specialize (W3 x). lia.
  - intros o i x Hx. destruct (Hnew o i x Hx) as [A|(A & -> & ->)]; [exact (W4 o i x A)|]. destruct (Hn x A) as (B1 & B2 & B3). split; [|exact B3].
    rewrite B1, B2. apply (W4 (c_from c) (c_out c) c). exact Hin.
Qed.

Definition moved (x : Z) (j : nat) (c : conn) : conn := mkConn x j (c_to c) (c_in c) (c_ctl c).
Lemma update_target g c x j : consistent g -> In c (g_outs g (c_from c) (c_out c)) -> c_from c <> c_to c ->
  x <> c_from c -> x <> c_to c -> (j < nout x)%nat ->
  exists g' l1 l2, update_connection (c, [moved x j c]) g = Some g' /\ consistent g' /\ g_outs g (c_from c) (c_out c) = l1 ++ c :: l2 /\ ~ In c l1 /\
    g_outs g' = set_let (set_let (g_outs g) (c_from c) (c_out c) (l1 ++ l2)) x j (g_outs g x j ++ [moved x j c]).
Proof.
  intros HC Hin Hself Hx1 Hx2 Hj. pose proof HC as (W1 & W2 & W3 & W4).
  assert (Hini : In c (g_ins g (c_to c) (c_in c))) by (apply in_both; assumption).
  destruct (remove1_split c _ Hin) as (l1 & l2 & El & Hl1 & Er).
  destruct (remove1_split c _ Hini) as (m1 & m2 & Em & Hm1 & Emr).
  set (c' := moved x j c). set (g' := mkGraph (set_let (g_ins g) (c_to c) (c_in c) ((m1 ++ m2) ++ [c'])) (set_let (set_let (g_outs g) (c_from c) (c_out c) (l1 ++ l2)) x j (g_outs g x j ++ [c']))).
  exists g', l1, l2.
  assert (Hupd : update_connection (c, [c']) g = Some g').
  { unfold update_connection. cbn [forallb]. unfold c', moved. cbn [c_from c_to].
    assert (c_from c =? x = false) as -> by lia. rewrite Z.eqb_refl. cbn [andb].
    unfold replace_connection. assert (c_from c =? c_to c = false) as -> by lia. rewrite Z.eqb_refl, Emr. cbn [with_ins option_map gbind].
    unfold remove_connection. assert (c_to c =? c_from c = false) as -> by lia. rewrite Z.eqb_refl. cbn [g_outs]. rewrite Er. cbn [with_outs option_map].
    unfold gfold. cbn [fold_left gbind]. unfold add_connection. cbn [c_to c_from c_out]. assert (c_to c =? x = false) as -> by lia. rewrite Z.eqb_refl.
    cbn [with_outs option_map g_outs g_ins]. rewrite set_let_other by congruence. reflexivity. }
  split; [exact Hupd|]. split; [|split; [exact El|split; [exact Hl1|reflexivity]]].
  assert (Hnew : forall o i y, In y (g_outs g' o i) -> In y (g_outs g o i) \/ (y = c' /\ o = x /\ i = j)).
  { intros o i y Hy. cbn [g' g_outs] in Hy. destruct (pair_dec (o, i) (x, j)) as [Eq|N].
    - injection Eq as -> ->. rewrite set_let_same in Hy. apply in_app_or in Hy as [Hy|[Hy|[]]]; auto.
    - rewrite set_let_other in Hy by exact N. left. destruct (pair_dec (o, i) (c_from c, c_out c)) as [Eq|N2].
      + injection Eq as -> ->. rewrite set_let_same in Hy. rewrite El. apply in_app_or in Hy as [Hy|Hy]; apply in_or_app; [left|right; right]; exact Hy.
      + rewrite set_let_other in Hy by exact N2. exact Hy. }
  split; [|split; [|split]].
  - intros o i y Hy. cbn [g' g_ins] in Hy. destruct (pair_dec (o, i) (c_to c, c_in c)) as [Eq|N].
    + injection Eq as -> ->. rewrite set_let_same in Hy. apply in_app_or in Hy as [Hy|[<- |[]]]; [|split; reflexivity].
      apply W1. rewrite Em. apply in_app_or in Hy as [Hy|Hy]; apply in_or_app; [left|right; right]; exact Hy.
    + rewrite set_let_other in Hy by exact N. apply W1. exact Hy.
  - intros o i y Hy. destruct (Hnew o i y Hy) as [A|(-> & -> & ->)]; [apply W2; exact A|split; reflexivity].
  - intros y. cbn [g' g_ins g_outs].
    assert (A1 : (cnt (set_let (g_ins g) (c_to c) (c_in c) ((m1 ++ m2) ++ [c']) (c_to y) (c_in y)) y + one c y)%nat = (cnt (g_ins g (c_to y) (c_in y)) y + one c' y)%nat).
    { destruct (pair_dec (c_to y, c_in y) (c_to c, c_in c)) as [Eq|N].
      - injection Eq as E1 E2. rewrite E1, E2, set_let_same, Em, (cnt_split m1 c m2), count_occ_app. cbn [count_occ]. unfold one. destruct (conn_dec c' y); lia.
      - rewrite set_let_other by exact N. unfold one. destruct (conn_dec c y) as [<- | _]; [congruence|]. destruct (conn_dec c' y) as [<- | _]; [exfalso; apply N; reflexivity|]. lia. }
    assert (A2 : (cnt (set_let (set_let (g_outs g) (c_from c) (c_out c) (l1 ++ l2)) x j (g_outs g x j ++ [c']) (c_from y) (c_out y)) y + one c y)%nat =
                 (cnt (g_outs g (c_from y) (c_out y)) y + one c' y)%nat).
    { destruct (pair_dec (c_from y, c_out y) (x, j)) as [Eq|N].
      - injection Eq as E1 E2. rewrite E1, E2, set_let_same, count_occ_app. cbn [count_occ]. unfold one.
        destruct (conn_dec c y) as [<- | _]; [congruence|]. destruct (conn_dec c' y); lia.
      - rewrite set_let_other by exact N. unfold one at 2. destruct (conn_dec c' y) as [<- | _]; [exfalso; apply N; reflexivity|].
        destruct (pair_dec (c_from y, c_out y) (c_from c, c_out c)) as [Eq|N2].
        + injection Eq as E1 E2. rewrite E1, E2, set_let_same, El, cnt_split. lia.
        + rewrite set_let_other by exact N2. unfold one. destruct (conn_dec c y) as [<- | _]; [congruence|]. lia. }
    specialize (W3 y). lia.
  - intros o i y Hy. destruct (Hnew o i y Hy) as [A|(-> & -> & ->)]; [exact (W4 o i y A)|]. cbn [c' moved c_out c_from c_in c_to]. split; [exact Hj|].
    apply (W4 (c_from c) (c_out c) c). exact Hin.
Qed.

(** ** Rerouting everything that goes to t *)
Section Reroute.
Context (t : Z) (fan : conn -> list conn).
Definition expand (c : conn) : list conn := if c_to c =? t then fan c else [c].
Definition fan_ok : Prop := forall c x, c_to c = t -> (c_in c < nin t)%nat -> In x (fan c) -> c_from x = c_from c /\ c_out x = c_out c /\ c_to x <> t /\ (c_in x < nin (c_to x))%nat.

Lemma expand_fan : fan_ok -> forall c, c_to c = t -> (c_in c < nin t)%nat -> flat_map expand (fan c) = fan c.
Proof.
  intros HF c Hc Hr. assert (H : forall x, In x (fan c) -> c_to x <> t) by (intros x Hx; apply (HF c x Hc Hr Hx)).
  induction (fan c) as [|x l IH]; [reflexivity|]. cbn [flat_map]. unfold expand at 1. assert (c_to x =? t = false) as ->.
  { specialize (H x (or_introl eq_refl)). lia. } cbn [app]. f_equal. apply IH. intros y Hy. apply H. right. exact Hy.
Qed.
Lemma expand_id l : (forall c, In c l -> c_to c <> t) -> flat_map expand l = l.
Proof.
  induction l as [|x l IH]; intros H; [reflexivity|]. cbn [flat_map]. unfold expand at 1.
  assert (c_to x =? t = false) as -> by (specialize (H x (or_introl eq_refl)); lia). cbn [app]. f_equal. apply IH. intros c Hc. apply H. right. exact Hc.
Qed.

Lemma reroute : fan_ok -> forall L g, consistent g ->
  (forall c, c_to c = t -> cnt (g_outs g (c_from c) (c_out c)) c = cnt L c) -> (forall c, In c L -> c_to c = t) ->
  (forall c, c_to c = t -> In c (g_outs g (c_from c) (c_out c)) -> c_from c <> t) ->
  exists g', gfold update_connection (map (fun c => (c, fan c)) L) (Some g) = Some g' /\ consistent g' /\
    (forall x i, flat_map expand (g_outs g' x i) = flat_map expand (g_outs g x i)) /\
    (forall i, g_outs g' t i = g_outs g t i) /\ (forall x i c, In c (g_outs g' x i) -> c_to c <> t).
Proof.
  intros HF. induction L as [|c L IH]; intros g HC HCnt HL HS.
  - exists g. split; [reflexivity|]. split; [exact HC|]. split; [reflexivity|]. split; [reflexivity|].
    intros x i c Hc E. pose proof HC as (_ & W2 & _ & _). destruct (W2 x i c Hc) as (<- & <-). apply cnt_in in Hc. rewrite (HCnt c E) in Hc. cbn [count_occ] in Hc. lia.
  - assert (Hct : c_to c = t) by (apply HL; left; reflexivity).
    assert (Hin : In c (g_outs g (c_from c) (c_out c))). { apply cnt_in. rewrite (HCnt c Hct). cbn [count_occ]. destruct (conn_dec c c); [lia|congruence]. }
    pose proof (HS c Hct Hin) as Hns.
    assert (Hr : (c_in c < nin t)%nat) by (rewrite <- Hct; destruct HC as (_ & _ & _ & W4); apply (W4 _ _ c Hin)).
    destruct (update_source g c (fan c) HC Hin) as (g1 & l1 & l2 & E & HC1 & El & Hl1 & EO).
    + congruence.
    + intros x Hx. destruct (HF c x Hct Hr Hx) as (A & B & _ & D). auto.
    + assert (Hexp : forall x i, flat_map expand (g_outs g1 x i) = flat_map expand (g_outs g x i)).
      { intros x i. rewrite EO. destruct (pair_dec (x, i) (c_from c, c_out c)) as [Eq|N].
        - injection Eq as -> ->. rewrite set_let_same, El. rewrite !flat_map_app. cbn [flat_map]. rewrite (expand_fan HF c Hct Hr).
          unfold expand at 4. rewrite Hct, Z.eqb_refl. reflexivity.
        - rewrite set_let_other by exact N. reflexivity. }
      destruct (IH g1 HC1) as (g' & E' & HC' & X1 & X2 & X3).
      * intros x Hx. rewrite EO. destruct (pair_dec (c_from x, c_out x) (c_from c, c_out c)) as [Eq|N].
        -- injection Eq as E1 E2. rewrite E1, E2, set_let_same. specialize (HCnt x Hx). rewrite E1, E2, El in HCnt.
           rewrite cnt_split in HCnt. rewrite !count_occ_app in *. cbn [count_occ] in HCnt.
           assert (cnt (fan c) x = O). { apply count_occ_not_In. intros C. destruct (HF c x Hct Hr C) as (_ & _ & D & _). contradiction. }
           unfold one in HCnt. destruct (conn_dec c x); lia.
        -- rewrite set_let_other by exact N. rewrite (HCnt x Hx). cbn [count_occ]. destruct (conn_dec c x) as [<- | _]; [congruence|reflexivity].
      * intros x Hx. apply HL. right. exact Hx.
      * intros x Hx Hxin. rewrite EO in Hxin. destruct (pair_dec (c_from x, c_out x) (c_from c, c_out c)) as [Eq|N].
        -- injection Eq as E1 E2. congruence.
        -- rewrite set_let_other in Hxin by exact N. apply HS; assumption.
      * exists g'. split; [|split; [exact HC'|split; [|split; [|exact X3]]]].
        -- unfold gfold in *. cbn [map fold_left gbind]. rewrite E. exact E'.
        -- intros x i. rewrite X1. apply Hexp.
        -- intros i. rewrite X2, EO. apply set_let_other. congruence.
Qed.
End Reroute.

(** ** Moving the connections of an outlet to another object *)
Lemma move_block o i x j : x <> o -> (j < nout x)%nat -> forall L g, consistent g -> g_outs g o i = L ->
  (forall c, In c L -> c_to c <> o /\ c_to c <> x) ->
  exists g', gfold update_connection (map (fun c => (c, [moved x j c])) L) (Some g) = Some g' /\ consistent g' /\
    g_outs g' o i = [] /\ g_outs g' x j = g_outs g x j ++ map (moved x j) L /\
    (forall y k, (y, k) <> (o, i) -> (y, k) <> (x, j) -> g_outs g' y k = g_outs g y k).
Proof.
  intros Hx Hj. induction L as [|c L IH]; intros g HC HL HT.
  - exists g. split; [reflexivity|]. split; [exact HC|]. split; [exact HL|]. split; [cbn [map]; rewrite app_nil_r; reflexivity|reflexivity].
  - assert (Hc : c_from c = o /\ c_out c = i). { destruct HC as (_ & W2 & _). apply (W2 o i c). rewrite HL. left. reflexivity. }
    destruct Hc as (Hf & Ho). destruct (HT c (or_introl eq_refl)) as (T1 & T2).
    destruct (update_target g c x j HC) as (g1 & l1 & l2 & E & HC1 & El & Hl1 & EO).
    + rewrite Hf, Ho, HL. left. reflexivity.
    + congruence.
    + congruence.
    + congruence.
    + exact Hj.
    + rewrite Hf, Ho in *. rewrite HL in El. assert (l1 = []) as ->.
      { destruct l1 as [|y l1]; [reflexivity|]. injection El as -> _. exfalso. apply Hl1. left. reflexivity. }
      injection El as <-. cbn [app] in EO.
      destruct (IH g1 HC1) as (g' & E' & HC' & A1 & A2 & A3).
      * rewrite EO, set_let_other by congruence. apply set_let_same.
      * intros y Hy. apply HT. right. exact Hy.
      * exists g'. split; [|split; [exact HC'|split; [exact A1|split]]].
        -- unfold gfold in *. cbn [map fold_left gbind]. rewrite E. exact E'.
        -- rewrite A2, EO, set_let_same, <- app_assoc. reflexivity.
        -- intros y k N1 N2. rewrite A3 by assumption. rewrite EO, !set_let_other by assumption. reflexivity.
Qed.
(** Blocks (outlet of o, target object and outlet). *)
Lemma move_blocks o g0 : forall bs g, consistent g -> NoDup (map fst bs) -> NoDup (map snd bs) ->
  (forall i x j, In (i, (x, j)) bs -> x <> o /\ (j < nout x)%nat /\ (forall i' c, In c (g_outs g o i') -> c_to c <> x)) ->
  (forall i' c, In c (g_outs g o i') -> c_to c <> o) ->
  (forall i x j, In (i, (x, j)) bs -> g_outs g o i = g_outs g0 o i) ->
  exists g', gfold update_connection (flat_map (fun b => map (fun c => (c, [moved (fst (snd b)) (snd (snd b)) c])) (g_outs g0 o (fst b))) bs) (Some g) = Some g' /\
    consistent g' /\
    (forall i x j, In (i, (x, j)) bs -> g_outs g' o i = [] /\ g_outs g' x j = g_outs g x j ++ map (moved x j) (g_outs g o i)) /\
    (forall y k, (y = o -> ~ In k (map fst bs)) -> ~ In (y, k) (map snd bs) -> g_outs g' y k = g_outs g y k).
Proof.
  induction bs as [|[i [x j]] bs IH]; intros g HC HN1 HN2 HB HO HG.
  - exists g. split; [reflexivity|]. split; [exact HC|]. split; [intros i x j []|reflexivity].
  - cbn [map fst snd] in *. inversion HN1 as [|? ? NI1 ND1]; subst. inversion HN2 as [|? ? NI2 ND2]; subst.
    destruct (HB i x j (or_introl eq_refl)) as (Hxo & Hj & Hfx).
    destruct (move_block o i x j Hxo Hj (g_outs g o i) g HC eq_refl) as (g1 & E & HC1 & A1 & A2 & A3).
    { intros c Hc. split; [eapply HO|eapply Hfx]; exact Hc. }
    assert (Hsame : forall i', i' <> i -> g_outs g1 o i' = g_outs g o i') by (intros i' N; apply A3; congruence).
    assert (Hsub : forall i' c, In c (g_outs g1 o i') -> In c (g_outs g o i')).
    { intros i' c Hc. destruct (Nat.eq_dec i' i) as [->|N]; [rewrite A1 in Hc; destruct Hc|]. rewrite Hsame in Hc by exact N. exact Hc. }
    destruct (IH g1 HC1 ND1 ND2) as (g' & E' & HC' & B1 & B2).
    + intros i' x' j' Hin. destruct (HB i' x' j' (or_intror Hin)) as (P & Q & R). split; [exact P|]. split; [exact Q|]. intros k c Hc. apply (R k). apply Hsub. exact Hc.
    + intros k c Hc. eapply HO. apply Hsub. exact Hc.
    + intros i' x' j' Hin. rewrite Hsame; [apply (HG i' x' j'); right; exact Hin|]. intros ->. apply NI1. apply in_map_iff. exists (i, (x', j')). auto.
    + exists g'. split; [|split; [exact HC'|split]].
      * unfold gfold in *. cbn [flat_map fst snd]. rewrite fold_left_app. rewrite <- (HG i x j (or_introl eq_refl)), E. exact E'.
      * intros i' x' j' [Eq|Hin].
        -- injection Eq as -> -> ->. rewrite (B2 o i'), (B2 x' j').
           ++ split; [exact A1|exact A2].
           ++ intros ->. contradiction.
           ++ exact NI2.
           ++ intros _. exact NI1.
           ++ intros C. apply in_map_iff in C as ([i2 [x2 j2]] & Eq2 & C). injection Eq2 as -> ->. destruct (HB i2 o i' (or_intror C)) as (P & _). congruence.
        -- destruct (B1 i' x' j' Hin) as (C1 & C2). split; [exact C1|]. rewrite C2. rewrite Hsame.
           ++ f_equal. apply A3.
              ** intros C. injection C as -> ->. destruct (HB i' o i (or_intror Hin)) as (P & _). congruence.
              ** intros C. injection C as -> ->. apply NI2. apply in_map_iff. exists (i', (x, j)). auto.
           ++ intros ->. apply NI1. apply in_map_iff. exists (i, (x', j')). auto.
      * intros y k N1 N2. rewrite B2.
        -- apply A3; [|intros C; injection C as -> ->; apply N2; left; reflexivity]. intros C. injection C as -> ->. apply (N1 eq_refl). left. reflexivity.
        -- intros -> C. apply (N1 eq_refl). right. exact C.
        -- intros C. apply N2. right. exact C.
Qed.

(** ** Removing the object *)
Lemma drop_let o i : forall L g, consistent g -> g_outs g o i = L -> (forall c, In c L -> c_to c <> o) ->
  exists g', gfold disconnect_objects L (Some g) = Some g' /\ consistent g' /\ g_outs g' o i = [] /\ (forall y k, (y, k) <> (o, i) -> g_outs g' y k = g_outs g y k).
Proof.
  induction L as [|c L IH]; intros g HC HL HT.
  - exists g. split; [reflexivity|]. split; [exact HC|]. split; [exact HL|reflexivity].
  - assert (Hc : c_from c = o /\ c_out c = i). { destruct HC as (_ & W2 & _). apply (W2 o i c). rewrite HL. left. reflexivity. }
    destruct Hc as (Hf & Ho). pose proof (HT c (or_introl eq_refl)) as T1.
    destruct (update_source g c [] HC) as (g1 & l1 & l2 & E & HC1 & El & Hl1 & EO).
    + rewrite Hf, Ho, HL. left. reflexivity.
    + congruence.
    + intros x [].
    + rewrite Hf, Ho in *. cbn [update_connection] in E. cbn [app] in EO.
      rewrite HL in El. assert (l1 = []) as ->.
      { destruct l1 as [|y l1]; [reflexivity|]. injection El as -> _. exfalso. apply Hl1. left. reflexivity. }
      injection El as <-. cbn [app] in EO.
      destruct (IH _ HC1) as (g' & E' & HC' & A1 & A2).
      * rewrite EO. apply set_let_same.
      * intros y Hy. apply HT. right. exact Hy.
      * exists g'. split; [|split; [exact HC'|split; [exact A1|]]].
        -- unfold gfold in *. cbn [fold_left gbind]. rewrite E. exact E'.
        -- intros y k N. rewrite A2 by exact N. rewrite EO, set_let_other by exact N. reflexivity.
Qed.
Lemma drop_outs o : forall js g, consistent g -> (forall j c, In c (g_outs g o j) -> c_to c <> o) ->
  exists g', gfold (fun j g => gfold disconnect_objects (g_outs g o j) (Some g)) js (Some g) = Some g' /\ consistent g' /\
    (forall y k, y <> o -> g_outs g' y k = g_outs g y k) /\ (forall j, g_outs g' o j = if in_dec Nat.eq_dec j js then [] else g_outs g o j).
Proof.
  induction js as [|j js IH]; intros g HC HT.
  - exists g. split; [reflexivity|]. split; [exact HC|]. split; reflexivity.
  - destruct (drop_let o j (g_outs g o j) g HC eq_refl (HT j)) as (g1 & E & HC1 & A1 & A2).
    destruct (IH g1 HC1) as (g' & E' & HC' & B1 & B2).
    { intros k c Hc. destruct (Nat.eq_dec k j) as [->|N]; [rewrite A1 in Hc; destruct Hc|]. rewrite A2 in Hc by congruence. eapply HT. exact Hc. }
    exists g'. split; [|split; [exact HC'|split]].
    + unfold gfold in *. cbn [fold_left gbind]. rewrite E. exact E'.
    + intros y k N. rewrite B1 by exact N. apply A2. congruence.
    + intros k. rewrite B2. destruct (in_dec Nat.eq_dec k js) as [I|I]; destruct (in_dec Nat.eq_dec k (j :: js)) as [I2|I2]; try reflexivity.
      * exfalso. apply I2. right. exact I.
      * destruct I2 as [->|I2]; [exact A1|contradiction].
      * apply A2. intros C. injection C as ->. apply I2. left. reflexivity.
Qed.
Lemma drop_object o i j g : consistent g -> j = nout o -> (forall x k c, In c (g_outs g x k) -> c_to c <> o) ->
  exists g', remove_object o i j g = Some g' /\ consistent g' /\ (forall y k, y <> o -> g_outs g' y k = g_outs g y k) /\ (forall k, g_outs g' o k = []).
Proof.
  intros HC -> HT. unfold remove_object.
  assert (Hins : forall is, gfold (fun i g => gfold disconnect_objects (g_ins g o i) (Some g)) is (Some g) = Some g).
  { assert (Hnil : forall k, g_ins g o k = []).
    { intros k. destruct (g_ins g o k) as [|c l] eqn:E; [reflexivity|]. exfalso. assert (Hin : In c (g_ins g o k)) by (rewrite E; left; reflexivity).
      pose proof HC as (W1 & _). destruct (W1 o k c Hin) as (E1 & E2). rewrite <- E1, <- E2 in Hin. apply (in_both g c HC) in Hin. exact (HT _ _ c Hin E1). }
    induction is as [|k is IH]; [reflexivity|]. unfold gfold in *. cbn [fold_left gbind]. rewrite Hnil. cbn [fold_left]. exact IH. }
  rewrite Hins. destruct (drop_outs o (seq 0 (nout o)) g HC) as (g' & E & HC' & A1 & A2); [intros k c; apply HT|].
  exists g'. split; [exact E|]. split; [exact HC'|]. split; [exact A1|]. intros k. rewrite A2. destruct (in_dec Nat.eq_dec k (seq 0 (nout o))) as [I|I]; [reflexivity|].
  destruct (g_outs g o k) as [|c l] eqn:Eg; [reflexivity|]. exfalso. apply I. apply in_seq. destruct HC as (_ & W2 & _ & W4).
  assert (Hin : In c (g_outs g o k)) by (rewrite Eg; left; reflexivity). destruct (W2 o k c Hin) as (E1 & E2). destruct (W4 o k c Hin) as (E3 & _). rewrite E1, E2 in E3. lia.
Qed.
End Bookkeeping.
