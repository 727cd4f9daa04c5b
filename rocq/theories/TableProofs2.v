(** Proofs about control access to tables. *)
From Verif Require Import TableModel TableSpec TableProofs.
From Coq Require Import ZifyBool.

Section P.
Context {V : Type}.
Variable vzero : V.
Variable N : Z.
Hypothesis HN : simd N.
Variable cast : f32 -> Z.
Hypothesis cast_range : forall f, 0 <= cast f < 4294967296.
Variable ceil_int : f32 -> outcome Z.
Notation step := (table_step vzero N cast ceil_int).
Notation run := (table_run vzero N cast ceil_int).

Record WInv (w : world V) : Prop := {
  wi_tables : forall i, (i < length (w_tables w))%nat -> owns N (tab w i);
  wi_rd : forall i, w_rd w = Some i -> (i < length (w_tables w))%nat;
  wi_wr : forall i, w_wr w = Some i -> (i < length (w_tables w))%nat;
  wi_x : 0 <= w_x w }.

Lemma set_nth_len (l : list (table V)) i t : length (set_nth i t l) = length l.
Proof. revert i. induction l as [|a l IH]; intros [|i]; cbn; auto. Qed.
Lemma set_nth_nth (l : list (table V)) i j t d : (i < length l)%nat ->
  nth j (set_nth i t l) d = if Nat.eqb j i then t else nth j l d.
Proof.
  revert i j. induction l as [|a l IH]; intros [|i] [|j] H; cbn in *; auto; try lia. apply IH. lia.
Qed.
Lemma starts_inv w : starts N w -> WInv w.
Proof.
  intro S. constructor; [|apply S|apply S|rewrite (st_x _ _ S); lia].
  intros i Hi. apply (st_tables _ _ S). unfold tab. apply nth_In. auto.
Qed.
Lemma with_inv w i t : WInv w -> (i < length (w_tables w))%nat -> owns N t ->
  WInv (with_tables w (set_nth i t (w_tables w))).
Proof.
  intros I Hi O. constructor; cbn; try rewrite set_nth_len; try apply I.
  intros j Hj. unfold tab; cbn. rewrite set_nth_nth by auto. destruct (Nat.eqb j i); [auto|]. apply (wi_tables _ I). auto.
Qed.

Lemma read_ok w f : WInv w -> exists w', step w (ReadAt f) = Ok w' /\ WInv w' /\
  w_tables w' = w_tables w /\ w_wr w' = w_wr w /\ w_x w' = w_x w /\
  (w_log w' = w_log w \/ exists i v, w_rd w = Some i /\ cast f < t_size (tab w i) /\
      get (tab w i) (cast f) = Ok v /\ w_log w' = w_log w ++ [v]).
Proof.
  intros I. cbn [table_step]. pose proof (cast_range f) as C.
  destruct (w_rd w) as [i|] eqn:R; [|exists w; auto 8].
  destruct (fleb fzero f); [|exists w; auto 8].
  destruct (Z.ltb_spec (cast f) (t_size (tab w i))) as [L|L]; [|exists w; auto 8].
  pose proof (wi_tables _ I i (wi_rd _ I i R)) as O.
  destruct (own_init _ _ O (cast f)) as [v Hv].
  { pose proof (own_block _ _ O). pose proof (N_pos N HN). lia. }
  rewrite Hv. cbn [obind]. eexists. split; [reflexivity|].
  split; [constructor; cbn; try apply I; rewrite <- R; apply I|].
  split; [auto|]. split; [auto|]. split; [auto|]. right. exists i, v. auto.
Qed.

Lemma step_inv w o w' : WInv w -> op_ok N ceil_int (length (w_tables w)) o -> step w o = Ok w' ->
  WInv w' /\ length (w_tables w') = length (w_tables w).
Proof.
  intros I K E. destruct o as [f|i|f|i|v|i f al|i].
  - destruct (read_ok w f I) as (w1 & E1 & I1 & T1 & _). rewrite E1 in E. injection E as E. subst w'. rewrite T1. auto.
  - cbn in E. injection E as <-. cbn. split; [|auto]. constructor; cbn; try apply I.
    intros j Hj. destruct i; [|discriminate]. injection Hj as ->. exact K.
  - cbn in E. destruct (w_wr w) as [i|] eqn:R; [|injection E as <-; auto].
    destruct (fleb fzero f); [|injection E as <-; auto].
    destruct (cast f <? t_size (tab w i)); injection E as <-; auto. cbn. split; [|auto].
    constructor; cbn; try apply I; [rewrite <- R; apply I|apply cast_range].
  - cbn in E. injection E as <-. cbn. split; [|auto]. constructor; cbn; try apply I.
    intros j Hj. destruct i; [|discriminate]. injection Hj as ->. exact K.
  - cbn [table_step] in E. destruct (w_wr w) as [i|] eqn:R; [|injection E as <-; auto].
    pose proof (wi_wr _ I i R) as Hi. pose proof (wi_tables _ I i Hi) as O.
    destruct (Z.ltb_spec (w_x w) (zlen (t_mem (tab w i)))) as [L|L].
    + destruct (put_spec N (tab w i) (w_x w) v O) as (t & E1 & O1 & _); [pose proof (wi_x _ I); lia|].
      rewrite E1 in E. cbn [obind] in E. injection E as <-. split; [apply with_inv; auto|cbn; apply set_nth_len].
    + exfalso. unfold put, write_cells in E. change (zlen [Some v]) with 1 in E.
      replace ((0 <=? w_x w) && (w_x w + 1 <=? zlen (t_mem (tab w i)))) with false in E by lia. discriminate.
  - cbn [table_step] in E. destruct (fleb fzero f); [|injection E as <-; auto].
    destruct K as (Hi & n & Cn & H0 & H1). rewrite Cn in E. cbn [obind] in E.
    destruct (resize_spec vzero N HN al (tab w i) n (wi_tables _ I i Hi) H0 H1) as (t & E1 & O1 & _).
    rewrite E1 in E. cbn [obind] in E. injection E as <-. split; [apply with_inv; auto|cbn; apply set_nth_len].
  - cbn [table_step] in E. destruct (mirror_spec N HN (tab w i) (wi_tables _ I i K)) as (t & E1 & O1 & _).
    rewrite E1 in E. cbn [obind] in E. injection E as <-. split; [apply with_inv; auto|cbn; apply set_nth_len].
Qed.

Lemma run_inv ops : forall w w', WInv w -> Forall (op_ok N ceil_int (length (w_tables w))) ops ->
  run w ops = Ok w' -> WInv w' /\ length (w_tables w') = length (w_tables w).
Proof.
  induction ops as [|o ops IH]; intros w w' I F E; [injection E as <-; auto|].
  cbn [table_run] in E. destruct (step w o) as [w1| |] eqn:S; try discriminate. cbn [obind] in E.
  inversion F as [|? ? F1 F2]; subst. destruct (step_inv w o w1 I F1 S) as [I1 L1].
  destruct (IH w1 w' I1) as [A B]; [rewrite L1; auto|auto|]. split; [auto|congruence].
Qed.

Lemma write_iff w i v : WInv w -> w_wr w = Some i ->
  (w_x w < zlen (t_mem (tab w i)) -> exists w', step w (WriteY v) = Ok w' /\ get (tab w' i) (w_x w) = Ok v /\
       forall j y, j <> i \/ y <> w_x w -> 0 <= y < zlen (t_mem (tab w j)) -> get (tab w' j) y = get (tab w j) y) /\
  (zlen (t_mem (tab w i)) <= w_x w -> step w (WriteY v) = UB).
Proof.
  intros I R. cbn [table_step]. rewrite R. pose proof (wi_wr _ I i R) as Hi. pose proof (wi_tables _ I i Hi) as O.
  pose proof (wi_x _ I). split; intro L.
  - destruct (put_spec N (tab w i) (w_x w) v O) as (t & E1 & O1 & S1 & G & G2 & _); [lia|].
    rewrite E1. cbn [obind]. eexists. split; [reflexivity|]. unfold tab at 1. cbn.
    rewrite set_nth_nth by auto. rewrite Nat.eqb_refl. split; [auto|].
    intros j y Hj Hy. unfold tab at 1. cbn. rewrite set_nth_nth by auto.
    destruct (Nat.eqb_spec j i) as [ -> |n]; [|auto]. apply G2; [auto|tauto].
  - unfold put, write_cells. change (zlen [Some v]) with 1.
    replace ((0 <=? w_x w) && (w_x w + 1 <=? zlen (t_mem (tab w i)))) with false by lia. reflexivity.
Qed.

(** Histories in which the writer's table is never switched or resized. *)
Definition XIn (w : world V) : Prop := forall i, w_wr w = Some i -> w_x w < zlen (t_mem (tab w i)).
Lemma mirror_len (t t' : table V) : hTable_mirror N t = Ok t' -> zlen (t_mem t') = zlen (t_mem t).
Proof.
  unfold hTable_mirror, read_cells. destruct (_ && _); [|discriminate]. cbn [obind].
  unfold write_cells. destruct (_ && _) eqn:B; [|discriminate]. cbn [obind]. intro E. injection E as <-. cbn [t_mem].
  apply andb_true_iff in B. destruct B as [B1 B2]. apply Z.leb_le in B1, B2. apply len_splice; assumption.
Qed.
Lemma pinned_step w o : WInv w -> XIn w -> op_ok N ceil_int (length (w_tables w)) o -> pins_table o = true ->
  exists w', step w o = Ok w' /\ XIn w'.
Proof.
  intros I X K P. destruct o as [f|i|f|i|v|i f al|i]; try discriminate.
  - destruct (read_ok w f I) as (w' & E & _ & T & W & Xe & _). exists w'. split; [auto|].
    unfold XIn, tab in *. rewrite T, W, Xe. exact X.
  - eexists. split; [reflexivity|]. exact X.
  - cbn [table_step]. destruct (w_wr w) as [i|] eqn:R; [|exists w; auto].
    destruct (fleb fzero f); [|exists w; auto].
    destruct (Z.ltb_spec (cast f) (t_size (tab w i))) as [L|L]; [|exists w; auto].
    eexists. split; [reflexivity|]. intros j Hj. cbn [w_wr] in Hj. assert (j = i) by congruence. subst j. cbn [w_x]. change (tab _ i) with (tab w i).
    pose proof (own_block _ _ (wi_tables _ I i (wi_wr _ I i R))). pose proof (N_pos N HN). lia.
  - cbn [table_step]. destruct (w_wr w) as [i|] eqn:R; [|exists w; auto].
    pose proof (wi_wr _ I i R) as Hi. pose proof (wi_x _ I).
    destruct (put_spec N (tab w i) (w_x w) v (wi_tables _ I i Hi)) as (t & E1 & O1 & S1 & G & G2 & L2);
      [specialize (X i R); lia|].
    rewrite E1. cbn [obind]. eexists. split; [reflexivity|]. intros j Hj. cbn in Hj |- *.
    unfold tab. cbn. rewrite set_nth_nth by auto. assert (j = i) by congruence. subst j. rewrite Nat.eqb_refl, L2. auto.
  - cbn [table_step]. destruct (mirror_spec N HN (tab w i) (wi_tables _ I i K)) as (t & E1 & O1 & _).
    rewrite E1. cbn [obind]. eexists. split; [reflexivity|]. intros j Hj. cbn in Hj |- *.
    unfold tab. cbn. rewrite set_nth_nth by auto. destruct (Nat.eqb_spec j i) as [ -> |n]; [|apply X; auto].
    rewrite (mirror_len _ _ E1). apply X. auto.
Qed.
Lemma pinned_run ops : forall w, WInv w -> XIn w -> Forall (op_ok N ceil_int (length (w_tables w))) ops ->
  forallb pins_table ops = true -> exists w', run w ops = Ok w'.
Proof.
  induction ops as [|o ops IH]; intros w I X F P; [exists w; auto|].
  cbn in P. apply andb_true_iff in P. destruct P as [P1 P2]. inversion F as [|? ? F1 F2]; subst.
  destruct (pinned_step w o I X F1 P1) as (w1 & E & X1). destruct (step_inv w o w1 I F1 E) as [I1 L1].
  cbn [table_run]. rewrite E. cbn [obind]. apply IH; auto. rewrite L1. auto.
Qed.
Lemma starts_xin w : starts N w -> XIn w.
Proof.
  intros S i Hi. rewrite (st_x _ _ S). pose proof (starts_inv w S) as I.
  pose proof (wi_tables _ I i (wi_wr _ I i Hi)) as O. pose proof (own_size _ _ O). pose proof (own_block _ _ O).
  pose proof (N_pos N HN). lia.
Qed.
End P.
