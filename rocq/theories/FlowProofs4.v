From Coq Require Import ZifyBool.
From Verif Require Import FlowModel FlowSpec FlowSim FlowProofs FlowProofs2 FlowProofs3.

Lemma c_calls_nth (F : nat -> list (Z * nat)) n j : (j < n)%nat -> c_calls (c_impl (map F (seq O n))) j = F j.
Proof.
  intros H. destruct n as [|[|n]]; [lia|destruct j; [reflexivity|lia]|].
  assert (G : forall n a, (a <= j < a + n)%nat -> match find (fun x : nat * list (Z * nat) => (fst x =? j)%nat) (combine (seq a (length (map F (seq a n)))) (map F (seq a n))) with Some (_, l) => l | None => [] end = F j).
  { clear. induction n as [|n IH]; intros a H; [lia|]. cbn [seq map length combine find fst]. destruct (Nat.eqb_spec a j) as [->|N]; [reflexivity|]. apply IH. lia. }
  exact (G (S (S n)) O ltac:(lia)).
Qed.

(** Least number satisfying a test, up to a bound. *)
Fixpoint least (p : nat -> bool) (k : nat) : nat :=
  match k with O => O | S k => if p O then O else S (least (fun n => p (S n)) k) end.
Lemma least_ok k : forall p n, (n <= k)%nat -> p n = true -> p (least p k) = true /\ (least p k <= n)%nat.
Proof.
  induction k as [|k IH]; intros p n Hn Hp; cbn [least].
  - assert (n = O) by lia. subst. auto with arith.
  - destruct (p O) eqn:E; [split; [exact E|lia]|]. destruct n as [|n]; [congruence|]. destruct (IH (fun n => p (S n)) n) as (A & B); [lia|exact Hp|]. split; [exact A|lia].
Qed.

Section OnMessage.
Context (pl : Z -> place) (g : graph).
Notation on n := (on_message pl g n).
Definition gather (F : Z * nat -> option (list (Z * nat))) (l : list (Z * nat)) : option (list (Z * nat)) :=
  fold_right (fun t acc => match F t, acc with Some a, Some b => Some (a ++ b) | _, _ => None end) (Some []) l.
Lemma gather_some F l r : gather F l = Some r <-> (forall t, In t l -> F t <> None) /\ r = flat_map (fun t => match F t with Some a => a | None => [] end) l.
Proof.
  revert r. induction l as [|t l IH]; intros r; cbn [gather fold_right flat_map].
  - split; [intros E; injection E as <-; split; [intros t []|reflexivity]|intros (_ & ->); reflexivity].
  - change (fold_right _ _ l) with (gather F l). destruct (F t) as [a|] eqn:E.
    + destruct (gather F l) as [b|] eqn:G.
      * destruct (proj1 (IH b) eq_refl) as (A & B). split.
        -- intros X. injection X as <-. split; [|subst b; reflexivity]. intros u [<- |Hu]; [congruence|auto].
        -- intros (_ & ->). rewrite <- B. reflexivity.
      * split; [discriminate|]. intros (A & B). assert (C : None = Some (flat_map (fun t => match F t with Some a => a | None => [] end) l)); [|discriminate].
        apply IH. split; [|reflexivity]. intros u Hu. apply A. right. exact Hu.
    + split; [discriminate|]. intros (A & _). exfalso. apply (A t (or_introl eq_refl)). exact E.
Qed.
Lemma on_S n t : on (S n) t = match pl (fst t) with PSub ils => gather (on n) (control_targets g (ils (snd t)) O) | POutlet gr idx => gather (on n) (control_targets g gr idx) | _ => Some [t] end.
Proof. reflexivity. Qed.
Lemma gather_mono F F' l r : (forall t r, F t = Some r -> F' t = Some r) -> gather F l = Some r -> gather F' l = Some r.
Proof.
  intros H E. apply gather_some in E as (A & ->). apply gather_some. split.
  - intros t Ht. specialize (A t Ht). destruct (F t) eqn:Et; [|congruence]. rewrite (H _ _ Et). discriminate.
  - apply flat_map_ext_in. intros t Ht. specialize (A t Ht). destruct (F t) eqn:Et; [|congruence]. rewrite (H _ _ Et). reflexivity.
Qed.
Lemma on_mono n : forall t r, on n t = Some r -> on (S n) t = Some r.
Proof.
  induction n as [|n IH]; intros t r E; [discriminate|]. rewrite on_S in E. rewrite on_S. destruct (pl (fst t)); auto; eapply gather_mono; try exact E; exact IH.
Qed.

Context (fuel : nat) (lists : Z -> nat -> list (Z * nat)).
Context (ok : Z -> Prop).
Definition src_of (t : Z * nat) : option (Z * nat) := match pl (fst t) with PSub ils => Some (ils (snd t), O) | POutlet gr idx => Some (gr, idx) | _ => None end.
Hypothesis Hlists : forall o i, ok o -> on_messages pl g fuel o i = Some (lists o i).
Hypothesis Hsrc : forall t s, src_of t = Some s -> ok (fst s).
Definition expand_to (t : Z * nat) : list (Z * nat) := match on (S fuel) t with Some l => l | None => [] end.
Lemma lists_expand o i : ok o -> lists o i = flat_map expand_to (control_targets g o i) /\ forall t, In t (control_targets g o i) -> on fuel t <> None.
Proof.
  intros Hok. pose proof (Hlists o i Hok) as E. unfold on_messages in E. change (gather (on fuel) (control_targets g o i) = Some (lists o i)) in E.
  apply gather_some in E as (A & ->). split; [|exact A]. apply flat_map_ext_in. intros t Ht. specialize (A t Ht). unfold expand_to. destruct (on fuel t) eqn:Et; [|congruence].
  rewrite (on_mono _ _ _ Et). reflexivity.
Qed.
Lemma expand_gone t s : src_of t = Some s -> expand_to t = flat_map expand_to (control_targets g (fst s) (snd s)).
Proof.
  intros E. pose proof (Hsrc t s E) as Hok. unfold expand_to at 1. rewrite on_S. unfold src_of in E. destruct (lists_expand (fst s) (snd s) Hok) as (A & _).
  pose proof (Hlists (fst s) (snd s) Hok) as HH. unfold on_messages in HH. change (gather (on fuel) (control_targets g (fst s) (snd s)) = Some (lists (fst s) (snd s))) in HH.
  destruct (pl (fst t)); try discriminate; injection E as <-; cbn [fst snd] in *; rewrite HH; exact A.
Qed.
Definition rank_of (t : Z * nat) : nat := least (fun n => match on n t with Some _ => true | None => false end) (S fuel).
Lemma rank_less t s u : src_of t = Some s -> In u (control_targets g (fst s) (snd s)) -> (rank_of u < rank_of t)%nat.
Proof.
  intros E Hu. pose proof (Hsrc t s E) as Hok. destruct (lists_expand (fst s) (snd s) Hok) as (_ & A).
  assert (D : on (S fuel) t <> None).
  { rewrite on_S. unfold src_of in E. pose proof (Hlists (fst s) (snd s) Hok) as HH. unfold on_messages in HH. change (gather (on fuel) (control_targets g (fst s) (snd s)) = Some (lists (fst s) (snd s))) in HH.
    destruct (pl (fst t)); try discriminate; injection E as <-; cbn [fst snd] in HH; rewrite HH; discriminate. }
  destruct (least_ok (S fuel) (fun n => match on n t with Some _ => true | None => false end) (S fuel)) as (B1 & B2); [lia|destruct (on (S fuel) t); congruence|].
  fold (rank_of t) in B1, B2. destruct (rank_of t) as [|r]; [discriminate B1|].
  assert (C : on r u <> None).
  { rewrite on_S in B1. unfold src_of in E. destruct (pl (fst t)); try discriminate; injection E as <-; cbn [fst snd] in Hu.
    - destruct (gather (on r) (control_targets g (inlets (snd t)) O)) eqn:G; [|discriminate]. apply gather_some in G as (G & _). apply G. exact Hu.
    - destruct (gather (on r) (control_targets g graph index)) eqn:G; [|discriminate]. apply gather_some in G as (G & _). apply G. exact Hu. }
  destruct (least_ok (S fuel) (fun n => match on n u with Some _ => true | None => false end) r) as (_ & B3); [lia|destruct (on r u); congruence|].
  fold (rank_of u) in B3. lia.
Qed.
Lemma expand_keep t : src_of t = None -> expand_to t = [t].
Proof. unfold src_of, expand_to. rewrite on_S. destruct (pl (fst t)); congruence. Qed.
End OnMessage.

Section Flow.
Context {M S : Type} (beh : Z -> nat -> M -> prog M S) (conv : ckind -> M -> option M).
Notation exec := (exec beh conv).
Context (nin nout : Z -> nat).
Notation source_patch := (source_patch nin nout).

Lemma reduce_cons oa todo g g' : reduce_object oa g = Some g' -> reduce (oa :: todo) g = reduce todo g'.
Proof. intros E. unfold reduce, gfold. cbn [fold_left gbind]. rewrite E. reflexivity. Qed.
Lemma renamed_not_in todo x : ~ In x (map fst todo) -> renamed todo x = x.
Proof.
  induction todo as [|[o [n i j|casts]] todo IH]; intros H; cbn [renamed]; [reflexivity| |].
  - cbn [map fst] in H. destruct (Z.eqb_spec x o) as [->|N]; [exfalso; apply H; left; reflexivity|]. apply IH. intros C. apply H. right. exact C.
  - apply IH. intros C. apply H. right. exact C.
Qed.
Definition is_box (n : node) : Prop := exists b, n = NBox b.

Lemma chain todo : forall kind g, source_patch kind g todo -> outlets_ok beh nout kind -> exists g', reduce todo g = Some g' /\ source_patch (kinds_after kind todo) g' [] /\ outlets_ok beh nout (kinds_after kind todo) /\ (forall x b, kind x = NBox b -> kinds_after kind todo (renamed todo x) = NBox b) /\
  (forall x k m st st' tr, is_box (kind x) -> exec (flow_of kind g) (TDeliver (x, k) m) st st' tr <-> exec (flow_of (kinds_after kind todo) g') (TDeliver (renamed todo x, k) m) st st' tr).
Proof.
  induction todo as [|[o [n i j|casts]] todo IH]; intros kind g HP HO.
  - exists g. cbn [kinds_after fold_left renamed]. split; [reflexivity|]. split; [exact HP|]. split; [exact HO|]. split; [auto|]. intros; reflexivity.
  - destruct (rename_step beh conv nin nout kind g o n i j todo HP) as (g1 & E1 & HP1 & X1).
    destruct (sp_actions _ _ _ _ _ HP _ (or_introl eq_refl)) as ((b & Hb) & -> & -> & Hni & Hno).
    destruct (sp_fresh _ _ _ _ _ HP _ n (or_introl eq_refl)) as (Hkn & _); [left; reflexivity|].
    assert (Hneq : n <> o) by (intros ->; congruence).
    set (kind1 := kind_after kind (o, ARename n (nin o) (nout o))) in *.
    assert (Ko : kind1 o = NNone) by (unfold kind1, kind_after; apply set_kind_same).
    assert (Kn : kind1 n = NBox b) by (unfold kind1, kind_after; rewrite set_kind_other by exact Hneq; rewrite set_kind_same; exact Hb).
    assert (Ky : forall y, y <> o -> y <> n -> kind1 y = kind y) by (intros y N1 N2; unfold kind1, kind_after; rewrite !set_kind_other by assumption; reflexivity).
    assert (HO1 : outlets_ok beh nout kind1).
    { destruct HO as (O1 & O2). split.
      - intros x bx i m Hx. destruct (Z.eq_dec x o) as [->|N1]; [congruence|]. destruct (Z.eq_dec x n) as [->|N2].
        + rewrite Hno. apply O1. congruence.
        + apply O1. rewrite <- Ky by assumption. exact Hx.
      - intros x k Hx. destruct (Z.eq_dec x o) as [->|N1]; [congruence|]. destruct (Z.eq_dec x n) as [->|N2]; [congruence|]. apply (O2 x k). rewrite <- Ky by assumption. exact Hx. }
    destruct (IH kind1 g1 HP1 HO1) as (g' & E & HP' & HO' & HB & X). exists g'. split; [rewrite (reduce_cons _ _ _ _ E1); exact E|]. split; [exact HP'|]. split; [exact HO'|].
    assert (Hn : ~ In n (map fst todo)).
    { pose proof (sp_ids _ _ _ _ _ HP) as HI. cbn [map fst flat_map snd new_ids app] in HI.
      inversion HI as [|? ? _ I2]; subst. apply NoDup_remove in I2 as (_ & I4). intros C. apply I4. apply in_or_app. left. exact C. }
    split.
    { intros x bx Hx. cbn [renamed]. change (kinds_after kind ((o, ARename n (nin o) (nout o)) :: todo)) with (kinds_after kind1 todo). destruct (Z.eqb_spec x o) as [->|N1].
      - rewrite <- (renamed_not_in todo n Hn). apply HB. congruence.
      - apply HB. rewrite Ky; [exact Hx|exact N1|intros ->; congruence]. }
    intros x k m st st' tr (bx & Hx). assert (Hxn : x <> n) by (intros ->; congruence). rewrite (X1 x k m st st' tr Hxn). cbn [renamed]. destruct (Z.eqb_spec x o) as [->|N1].
    + rewrite X by (exists b; exact Kn). rewrite renamed_not_in by exact Hn. reflexivity.
    + apply X. exists bx. rewrite Ky by assumption. exact Hx.
  - destruct (seq_step beh conv nin nout kind g o casts todo HP) as (g1 & E1 & HP1 & X1).
    destruct (sp_actions _ _ _ _ _ HP _ (or_introl eq_refl)) as (ks & Hb & Hni & Hno & HF).
    pose proof (fun x Hx => sp_fresh _ _ _ _ _ HP _ x (or_introl eq_refl) Hx) as Hfr. cbn [snd] in Hfr.
    assert (NDn : NoDup (new_ids (ASeq casts))).
    { pose proof (sp_ids _ _ _ _ _ HP) as HI. cbn [map fst flat_map snd app] in HI. inversion HI as [|? ? _ I2]; subst. apply NoDup_app_inv in I2 as (_ & J2 & _). apply NoDup_app_inv in J2 as (K1 & _). exact K1. }
    assert (Hon : ~ In o (new_ids (ASeq casts))) by (intros C; destruct (Hfr o C); congruence).
    destruct (kind_after_seq nin nout kind o ks casts Hb HF NDn Hon) as (Ko & Ky & Kc).
    set (kind1 := kind_after kind (o, ASeq casts)) in *.
    assert (HO1 : outlets_ok beh nout kind1).
    { destruct HO as (O1 & O2). split.
      - intros x bx i m Hx. destruct (Z.eq_dec x o) as [->|N1]; [congruence|]. destruct (in_dec Z.eq_dec x (new_ids (ASeq casts))) as [I|N2].
        + apply new_id_nth in I as (q & Hq). destruct (Kc q x Hq) as (? & _ & ?). congruence.
        + apply O1. rewrite <- Ky by assumption. exact Hx.
      - intros x k Hx. destruct (Z.eq_dec x o) as [->|N1]; [congruence|]. destruct (in_dec Z.eq_dec x (new_ids (ASeq casts))) as [I|N2].
        + apply new_id_nth in I as (q & Hq). clear -HF Hq. revert q Hq. induction HF as [|kk c ks casts Hkc HF IH]; intros [|q] Hq; try discriminate; cbn [nth_error] in Hq; [|exact (IH q Hq)].
          injection Hq as ->. destruct kk; [discriminate| | |]; destruct Hkc as (y & Ey & _ & B); congruence.
        + apply (O2 x k). rewrite <- Ky by assumption. exact Hx. }
    destruct (IH kind1 g1 HP1 HO1) as (g' & E & HP' & HO' & HB & X). exists g'. split; [rewrite (reduce_cons _ _ _ _ E1); exact E|]. split; [exact HP'|]. split; [exact HO'|].
    split.
    { intros x bx Hx. cbn [renamed]. change (kinds_after kind ((o, ASeq casts) :: todo)) with (kinds_after kind1 todo).
      apply HB. rewrite Ky; [exact Hx|intros ->; congruence|intros C; destruct (Hfr x C); congruence]. }
    intros x k m st st' tr (bx & Hx). cbn [renamed].
    assert (N1 : x <> o) by (intros ->; congruence). assert (N2 : ~ In x (new_ids (ASeq casts))) by (intros C; destruct (Hfr x C); congruence).
    rewrite (X1 x k m st st' tr N1 N2). apply X. exists bx. rewrite Ky by assumption. exact Hx.
Qed.

Lemma flatten kind g fuel lists : (forall o ks, kind o <> NTrigger ks) -> nested_ok kind -> outlets_ok beh nout kind ->
  (forall o i, kind o <> NNone -> on_messages (place_of kind) g fuel o i = Some (lists o i)) ->
  forall x k m st st' tr, is_box (kind x) -> exec (flow_of kind g) (TDeliver (x, k) m) st st' tr <-> exec (compiled kind nout lists) (TDeliver (x, k) m) st st' tr.
Proof.
  intros HT (N1 & N2) (O1 & O2) HL. pose (pl := place_of kind). pose (exp := expand_to pl g fuel).
  pose (gone := fun o => match kind o with NSub _ | NOutlet _ _ => true | _ => false end).
  assert (Hsrc : forall t s, src_of pl t = Some s -> kind (fst s) <> NNone).
  { intros t s E. unfold src_of, pl, place_of in E. destruct (kind (fst t)) eqn:K; try discriminate; injection E as <-; cbn [fst].
    - rewrite (N1 _ _ (snd t) K). discriminate.
    - destruct (N2 _ _ _ K) as (ils & ->). discriminate. }
  assert (Hkeep : forall o i, gone o = false -> exp (o, i) = [(o, i)]).
  { intros o i G. apply expand_keep. unfold src_of, pl, place_of. unfold gone in G. cbn [fst]. destruct (kind o); congruence. }
  assert (Hout : forall o j, kind o <> NNone -> (j < nout o)%nat -> f_outs (compiled kind nout lists) o j = flat_map exp (control_targets g o j)).
  { intros o j Ho Hj. cbn [f_outs compiled]. rewrite c_calls_nth by exact Hj. apply (lists_expand pl g fuel lists (fun o => kind o <> NNone) HL). exact Ho. }
  assert (HS : sim beh (flow_of kind g) (compiled kind nout lists) gone exp (fun x => x) (rank_of pl g fuel) (fun o j => (j < nout o)%nat)).
  { split.
    - exact Hkeep.
    - cbn [f_kind flow_of compiled]. intros o b G K. split; [exact K|]. split; [intros i m; apply O1; exact K|]. intros j Hj. apply Hout; [congruence|exact Hj].
    - cbn [f_kind flow_of compiled]. intros o G K. split; [exact K|]. intros i. apply Forall2_diag. intros [kk [s j]] Hs. split; [reflexivity|]. cbn [fst snd].
      unfold gone in G. destruct (kind o) eqn:Ko; cbn [passes] in Hs; try discriminate; try (destruct Hs; fail).
      + exfalso. exact (HT o ks Ko).
      + destruct Hs as [E|[]]. injection E as <- <- <-. apply Hout; [congruence|]. rewrite (O2 o k Ko). lia.
    - cbn [f_kind flow_of compiled]. intros o G. unfold gone in G. split; [intros b Kb; rewrite Kb in G; discriminate|]. intros i.
      assert (HH : exists s, src_of pl (o, i) = Some s /\ passes (kind o) o i = [(KAny, s)]).
      { unfold src_of, pl, place_of. cbn [fst snd]. destruct (kind o); try discriminate; eexists; split; reflexivity. }
      destruct HH as (s & Es & Ep). rewrite Ep. exists [flat_map exp (control_targets g (fst s) (snd s))]. split.
      + cbn [concat]. rewrite app_nil_r. apply (expand_gone pl g fuel lists (fun o => kind o <> NNone) HL Hsrc). exact Es.
      + constructor; [|constructor]. left. cbn [fst snd f_outs flow_of]. split; [reflexivity|]. split; [reflexivity|]. intros t Ht _. exact (rank_less pl g fuel lists (fun o => kind o <> NNone) HL Hsrc _ _ _ Es Ht). }
  intros x k m st st' tr (b & Hb). rewrite <- !send_single. rewrite (sim_send beh conv _ _ _ _ _ _ _ HS [(x, k)] m st st' tr).
  cbn [flat_map]. rewrite app_nil_r, Hkeep; [reflexivity|]. unfold gone. rewrite Hb. reflexivity.
Qed.

End Flow.
