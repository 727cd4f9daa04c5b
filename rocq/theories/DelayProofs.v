(** Proofs about the delay object. *)
From Verif Require Import DelayModel DelaySpec.
From Coq Require Import Permutation ZifyBool.

Section P.
Context {M : Type}.
Variable own : Z.
Variable fresh : list Z -> Z.
Hypothesis fresh_ok : forall l, ~ In (fresh l) l.
Variable hook : dstate M -> Z -> M -> dstate M.

Notation isown := (fun e : qentry M => q_dest e =? own).
Notation mine := (@own_entries M own).
Fixpoint somes (l : list (option Z)) : list Z :=
  match l with [] => [] | Some a :: l' => a :: somes l' | None :: l' => somes l' end.

Hypothesis HQ : hook_quiet own hook.

Record Inv (s : dstate M) : Prop := {
  i_nodup : NoDup (ids (d_queue s));
  i_len : length (d_slots s) = 8%nat;
  i_slots : Permutation (somes (d_slots s)) (ids (mine s)) }.

Lemma enqueue_perm q (e : qentry M) : Permutation (enqueue q e) (e :: q).
Proof.
  assert (H : forall q, Permutation (insert_before_later e q) (e :: q)).
  { induction q0 as [|x q0 IH]; cbn; [auto|]. destruct (q_ts e <? q_ts x); [auto|].
    rewrite IH. apply perm_swap. }
  unfold enqueue. destruct q as [|x q]; [auto|].
  destruct (q_ts e <? q_ts x); [auto|]. destruct (q_ts (last (x :: q) x) <=? q_ts e); [|apply H].
  rewrite Permutation_app_comm. auto.
Qed.
Lemma filter_perm {A} (f : A -> bool) l l' : Permutation l l' -> Permutation (filter f l) (filter f l').
Proof.
  induction 1; cbn; auto.
  - destruct (f x); auto.
  - destruct (f x), (f y); auto. apply perm_swap.
  - etransitivity; eauto.
Qed.

Lemma somes_app a b : somes (a ++ b) = somes a ++ somes b.
Proof. induction a as [|[x|] a IH]; cbn; congruence. Qed.
Lemma somes_nones n : somes (repeat None n) = [].
Proof. induction n; cbn; auto. Qed.
Lemma somes_in l k a : nth k l None = Some a -> In a (somes l).
Proof.
  revert k. induction l as [|[x|] l IH]; intros [|k] H; cbn in *; try discriminate; auto.
  - left. congruence.
  - right. eauto.
  - eauto.
Qed.
Lemma first_free_set l k a : first_free l = Some k ->
  Permutation (somes (set_slot k (Some a) l)) (a :: somes l) /\ length (set_slot k (Some a) l) = length l.
Proof.
  revert k. induction l as [|[x|] l IH]; intros k H; cbn in H; [discriminate| |].
  - destruct (first_free l) as [j|] eqn:E; [|discriminate]. injection H as <-.
    destruct (IH _ eq_refl) as [P L]. split; [|cbn; lia]. cbn. rewrite P. apply perm_swap.
  - injection H as <-. cbn. split; auto.
Qed.
Lemma first_free_none l : first_free l = None -> length (somes l) = length l.
Proof.
  induction l as [|[x|] l IH]; cbn; intro H; [auto| |discriminate].
  destruct (first_free l); [discriminate|]. rewrite IH; auto.
Qed.
Lemma first_free_some l k : first_free l = Some k -> (length (somes l) < length l)%nat.
Proof.
  revert k. induction l as [|[x|] l IH]; cbn; intros k H; [discriminate| |].
  - destruct (first_free l) as [j|]; [|discriminate]. specialize (IH _ eq_refl). lia.
  - clear. assert (forall l, (length (somes l) <= length l)%nat).
    { induction l0 as [|[y|] l0 IH]; cbn; lia. } specialize (H l). lia.
Qed.
Lemma clear_exec_len l a : length (clear_executing l a) = length l.
Proof. induction l as [|[x|] l IH]; cbn; auto. destruct (x =? a); cbn; auto. Qed.
Lemma clear_exec_somes l a : NoDup (somes l) -> somes (clear_executing l a) = filter (fun b => negb (b =? a)) (somes l).
Proof.
  induction l as [|[x|] l IH]; cbn; intro N; auto.
  inversion N as [|y m N1 N2]; subst. destruct (Z.eqb_spec x a) as [->|n]; cbn; [|f_equal; auto].
  clear - N1. induction (somes l) as [|z m IH]; cbn; auto. cbn in N1.
  destruct (Z.eqb_spec z a); [subst; tauto|]. cbn. f_equal. apply IH. tauto.
Qed.
Lemma clear_exec_nth l a k : NoDup (somes l) -> nth k (clear_executing l a) None =
  match nth k l None with Some b => if b =? a then None else Some b | None => None end.
Proof.
  revert k. induction l as [|[x|] l IH]; intros k N; cbn in *.
  - destruct k; auto.
  - inversion N as [|y m N1 N2]; subst. destruct (Z.eqb_spec x a) as [->|n].
    + destruct k; cbn; [rewrite Z.eqb_refl; auto|].
      destruct (nth k l None) as [b|] eqn:E; auto.
      destruct (Z.eqb_spec b a) as [->|]; auto. apply somes_in in E. tauto.
    + destruct k; cbn; [destruct (Z.eqb_spec x a); [tauto|auto]|auto].
  - destruct k; cbn; auto.
Qed.
Lemma all_none l : (forall k, (k < length l)%nat -> nth k l None = None) -> somes l = [].
Proof.
  induction l as [|[x|] l IH]; cbn; intro H; auto.
  - specialize (H 0%nat ltac:(lia)). discriminate.
  - apply IH. intros k Hk. apply (H (S k)). lia.
Qed.

Lemma ids_filter_neq (q : list (qentry M)) a :
  ids (filter (fun e => negb (q_id e =? a)) q) = filter (fun b => negb (b =? a)) (ids q).
Proof. induction q as [|x q IH]; cbn; auto. destruct (q_id x =? a); cbn; [|f_equal]; exact IH. Qed.
Lemma filter_comm {A} (f g : A -> bool) l : filter f (filter g l) = filter g (filter f l).
Proof.
  induction l as [|x l IH]; cbn; auto.
  destruct (f x) eqn:F, (g x) eqn:G; cbn; rewrite ?F, ?G; congruence.
Qed.
Lemma ids_nodup_filter (f : qentry M -> bool) q : NoDup (ids q) -> NoDup (ids (filter f q)).
Proof.
  induction q as [|x q IH]; cbn; intro N; auto.
  inversion N as [|y m N1 N2]; subst. destruct (f x); cbn; auto. constructor; auto.
  intro H. apply N1. unfold ids in *. rewrite in_map_iff in *. destruct H as (e & A & B).
  apply filter_In in B. exists e. tauto.
Qed.
Lemma mine_cancel s a : mine (cancel s a own) = filter (fun e : qentry M => negb (q_id e =? a)) (mine s).
Proof.
  unfold own_entries, cancel. cbn. induction (d_queue s) as [|x q IH]; cbn; auto.
  destruct (q_id x =? a) eqn:E, (q_dest x =? own) eqn:F; cbn; rewrite ?E, ?F; cbn; rewrite ?E, ?F; cbn; congruence.
Qed.
Lemma filter_all {A} (f : A -> bool) l : (forall x, In x l -> f x = true) -> filter f l = l.
Proof. induction l; cbn; intro H; auto. rewrite (H a) by auto. f_equal. auto. Qed.

Lemma split_id (q : list (qentry M)) a : NoDup (ids q) -> In a (ids q) ->
  exists e, find_id q a = Some e /\ q_id e = a /\
   exists q1 q2, q = q1 ++ e :: q2 /\ filter (fun e => negb (q_id e =? a)) q = q1 ++ q2
     /\ (forall t, retime q a t = q1 ++ mkQ t a (q_dest e) (q_msg e) :: q2).
Proof.
  unfold ids, find_id, retime. induction q as [|x q IH]; cbn; intros N I; [tauto|].
  inversion N as [|y m N1 N2]; subst. destruct (Z.eqb_spec (q_id x) a) as [E|E].
  - exists x. split; [auto|]. split; [auto|]. exists [], q. subst a.
    assert (K : forall y, In y q -> q_id y <> q_id x)
      by (intros y Hy K; apply N1; rewrite <- K; apply in_map; auto).
    split; [auto|]. split.
    + cbn. apply filter_all. intros y Hy. specialize (K y Hy). lia.
    + intro t. cbn. f_equal. rewrite <- (map_id q) at 2. apply map_ext_in.
      intros y Hy. specialize (K y Hy). destruct (Z.eqb_spec (q_id y) (q_id x)); [tauto|auto].
  - destruct I as [I|I]; [tauto|]. destruct (IH N2 I) as (e & A & B & q1 & q2 & C & D & R).
    exists e. split; [auto|]. split; [auto|]. exists (x :: q1), q2. cbn. subst q.
    split; [auto|]. split; [cbn; congruence|]. intro t. rewrite R. reflexivity.
Qed.

Definition body (q : list (qentry M)) := map (fun e => (q_ts e, q_msg e)) q.
Lemma pending_body s : pending own s = body (mine s). Proof. reflexivity. Qed.

(** One iteration of flush on an occupied slot. *)
Lemma sendMessage_slots s t a m : d_slots (sendMessage hook s t a m) = clear_executing (d_slots s) a.
Proof. unfold sendMessage. rewrite (hq_slots HQ). reflexivity. Qed.
Lemma sendMessage_mine s t a m : mine (sendMessage hook s t a m) = mine s.
Proof. unfold sendMessage. rewrite (hq_mine HQ). reflexivity. Qed.
Lemma sendMessage_out s t a m : d_out (sendMessage hook s t a m) = d_out s ++ [(t, m)].
Proof. unfold sendMessage. rewrite (hq_out HQ). reflexivity. Qed.
Lemma sendMessage_delay s t a m : d_delay (sendMessage hook s t a m) = d_delay s.
Proof. unfold sendMessage. rewrite (hq_delay HQ). reflexivity. Qed.

Lemma in_ids_mine_queue s a : In a (ids (mine s)) -> In a (ids (d_queue s)).
Proof.
  unfold ids, mine. rewrite !in_map_iff. intros (e & A & B). apply filter_In in B. exists e. tauto.
Qed.

Lemma flush_loop_spec k : forall s now i, Inv s -> (i + k = 8)%nat ->
  (forall j, (j < i)%nat -> nth j (d_slots s) None = None) ->
  exists s' o, flush_loop own hook s now i k = Ok s' /\ Inv s' /\ mine s' = [] /\ d_delay s' = d_delay s
     /\ d_out s' = d_out s ++ o /\ Permutation o (map (fun x => (now, snd x)) (pending own s)).
Proof.
  induction k as [|k IH]; intros s now i I Hk Hn.
  - assert (E : somes (d_slots s) = []).
    { apply all_none. intros j Hj. apply Hn. rewrite (i_len _ I) in Hj. lia. }
    assert (E2 : mine s = []).
    { pose proof (i_slots _ I) as P. rewrite E in P. apply Permutation_nil in P.
      unfold ids in P. apply map_eq_nil in P. auto. }
    exists s, []. split; [reflexivity|]. split; [auto|]. split; [auto|]. split; [auto|].
    split; [rewrite app_nil_r; auto|]. rewrite pending_body, E2. cbn. auto.
  - cbn [flush_loop]. destruct (nth i (d_slots s) None) as [a|] eqn:E.
    2:{ apply IH; auto; [lia|]. intros j Hj. destruct (Nat.eq_dec j i); [subst; auto|apply Hn; lia]. }
    pose proof (somes_in _ _ _ E) as Ia.
    assert (Ns : NoDup (somes (d_slots s))).
    { eapply Permutation_NoDup; [symmetry; apply (i_slots _ I)|]. unfold own_entries. apply ids_nodup_filter, (i_nodup _ I). }
    rewrite (i_slots _ I) in Ia.
    assert (Nm : NoDup (ids (mine s))) by (unfold own_entries; apply ids_nodup_filter, (i_nodup _ I)).
    destruct (split_id (d_queue s) a (i_nodup _ I) (in_ids_mine_queue _ _ Ia))
      as (e & Fe & Ide & q1 & q2 & Eq & Ef & Er).
    destruct (split_id (mine s) a Nm Ia) as (e' & Fe' & Ide' & p1 & p2 & Ep & Epf & Epr).
    assert (In e' (d_queue s) /\ q_dest e' = own) as [Ie' De'].
    { assert (H : In e' (mine s)) by (rewrite Ep; apply in_or_app; right; left; auto).
      unfold own_entries in H. apply filter_In in H. split; [tauto|]. destruct H as [_ H]. apply Z.eqb_eq in H. auto. }
    assert (e' = e).
    { rewrite Eq in Ie'. apply in_app_or in Ie'. pose proof (i_nodup _ I) as N. rewrite Eq in N.
      unfold ids in N. rewrite map_app in N. cbn in N. apply NoDup_remove_2 in N.
      destruct Ie' as [H|[H|H]]; [|auto|]; exfalso; apply N; apply in_or_app;
        [left|right]; rewrite Ide, <- Ide'; apply in_map; auto. }
    subst e'. rewrite Fe.
    set (s1 := mkD (retime (d_queue s) a now) (d_delay s) (d_slots s) (d_out s)).
    set (s2 := sendMessage hook s1 now a (q_msg e)).
    assert (R1 : ids (d_queue s1) = ids (d_queue s)).
    { cbn. unfold ids, retime. rewrite map_map. apply map_ext. intro y. destruct (q_id y =? a); auto. }
    assert (M1 : mine s1 = retime (mine s) a now).
    { unfold own_entries; cbn. unfold retime. clear. induction (d_queue s) as [|x q IHq]; cbn; auto.
      destruct (q_id x =? a) eqn:E1; cbn; destruct (q_dest x =? own) eqn:E2; cbn; rewrite ?E1; congruence. }
    assert (M2 : mine s2 = p1 ++ mkQ now a (q_dest e) (q_msg e) :: p2).
    { unfold s2. rewrite sendMessage_mine, M1, Epr. reflexivity. }
    assert (Np : NoDup (ids (p1 ++ mkQ now a (q_dest e) (q_msg e) :: p2))).
    { rewrite Ep in Nm. unfold ids in *. rewrite map_app in *. cbn in *. rewrite Ide in Nm. auto. }
    assert (M3 : mine (cancel s2 a own) = p1 ++ p2).
    { rewrite mine_cancel, M2, <- Epf, Ep. rewrite !filter_app. cbn. rewrite Ide, Z.eqb_refl. reflexivity. }
    assert (I3 : Inv (cancel s2 a own)).
    { constructor.
      - cbn. apply ids_nodup_filter. unfold s2, sendMessage. apply (hq_nodup HQ). cbn.
        change (NoDup (ids (d_queue s1))). rewrite R1. apply (i_nodup _ I).
      - cbn. unfold s2. rewrite sendMessage_slots, clear_exec_len. apply (i_len _ I).
      - rewrite M3, <- Epf, ids_filter_neq. cbn. unfold s2. rewrite sendMessage_slots.
        rewrite clear_exec_somes by auto. apply filter_perm. apply (i_slots _ I). }
    destruct (IH (cancel s2 a own) now (S i) I3) as (s' & o & A & B & C & D & F & G).
    + lia.
    + intros j Hj. cbn. unfold s2. rewrite sendMessage_slots, clear_exec_nth by auto. cbn.
      destruct (Nat.eq_dec j i); [subst; rewrite E, Z.eqb_refl; auto|]. rewrite Hn by lia. auto.
    + exists s', ((now, q_msg e) :: o). split; [auto|]. split; [auto|]. split; [auto|].
      split; [rewrite D; cbn; unfold s2; rewrite sendMessage_delay; auto|].
      split.
      * rewrite F. cbn. unfold s2. rewrite sendMessage_out, <- app_assoc. reflexivity.
      * rewrite G, !pending_body, M3, Ep. unfold body. rewrite !map_app. cbn.
        apply Permutation_middle.
Qed.

Lemma clear_loop_spec l : forall s,
  let s' := clear_loop own s l in
  mine s' = filter (fun e => negb (existsb (fun b => q_id e =? b) (somes l))) (mine s)
  /\ d_delay s' = d_delay s /\ d_out s' = d_out s /\ (NoDup (ids (d_queue s)) -> NoDup (ids (d_queue s'))).
Proof.
  induction l as [|[a|] l IH]; intro s; cbn.
  - split; [|auto]. rewrite filter_all; auto.
  - destruct (IH (cancel s a own)) as (A & B & C & D). split; [|split; [auto|split; [auto|]]].
    + rewrite A, mine_cancel. clear. induction (mine s) as [|x q IH]; cbn; auto.
      destruct (q_id x =? a) eqn:E; cbn; [auto|].
      destruct (existsb _ (somes l)); cbn; congruence.
    + intro N. apply D. cbn. apply ids_nodup_filter; auto.
  - apply IH.
Qed.

Lemma body_perm (q q' : list (qentry M)) : Permutation q q' -> Permutation (body q) (body q').
Proof. apply Permutation_map. Qed.

Lemma step_spec s o : Inv s -> (forall now m, o = Arrive now m -> length (mine s) < 8)%nat ->
  exists s', delay_step own fresh hook s o = Ok s' /\ Inv s' /\
  forall p, Permutation (pending own s) p ->
  exists p', spec_step (mkSpec p (d_delay s) (d_out s)) o (mkSpec p' (d_delay s') (d_out s'))
     /\ Permutation (pending own s') p'.
Proof.
  intros I Hc. destruct o as [now m|now| |d|ts dest m|].
  - cbn [delay_step]. unfold on_message. specialize (Hc _ _ eq_refl).
    pose proof (Permutation_length (i_slots _ I)) as L. unfold ids in L. rewrite map_length in L.
    destruct (first_free (d_slots s)) as [k|] eqn:E.
    2:{ apply first_free_none in E. rewrite (i_len _ I) in E. lia. }
    unfold schedule. cbn [d_slots]. set (a := fresh (ids (d_queue s))).
    set (e := mkQ (u32 (now + d_delay s)) a own m).
    destruct (first_free_set _ _ a E) as [P1 P2].
    assert (Pe : Permutation (enqueue (d_queue s) e) (e :: d_queue s)) by apply enqueue_perm.
    assert (Pm : Permutation (filter isown (enqueue (d_queue s) e)) (e :: mine s)).
    { rewrite (filter_perm _ _ _ Pe). cbn. rewrite Z.eqb_refl. reflexivity. }
    eexists. split; [reflexivity|]. split.
    + constructor; cbn.
      * eapply Permutation_NoDup; [symmetry; apply Permutation_map; apply Pe|]. cbn. constructor.
        -- apply fresh_ok. -- apply (i_nodup _ I).
      * rewrite P2. apply (i_len _ I).
      * rewrite P1. unfold own_entries. cbn. unfold ids. rewrite (Permutation_map _ Pm). cbn.
        constructor. apply (i_slots _ I).
    + intros p Hp. cbn [d_delay d_out d_slots set_slots]. eexists. split.
      * apply sp_arrive. rewrite <- (Permutation_length Hp), pending_body. unfold body. rewrite map_length. auto.
      * rewrite pending_body. unfold own_entries. cbn. rewrite (body_perm _ _ Pm). cbn.
        rewrite <- Permutation_cons_append. constructor. auto.
  - cbn [delay_step]. destruct (flush_loop_spec 8 s now 0 I) as (s' & out & A & B & C & D & F & G); [auto|lia|].
    rewrite A. cbn [obind]. eexists. split; [reflexivity|]. split.
    + constructor; cbn; [apply (i_nodup _ B)|auto|]. unfold own_entries in *. cbn. rewrite C. auto.
    + intros p Hp. exists []. split.
      * cbn. rewrite F, D. apply sp_flush. rewrite G. apply Permutation_map. auto.
      * rewrite pending_body. unfold own_entries in *. cbn. rewrite C. auto.
  - cbn [delay_step]. destruct (clear_loop_spec (d_slots s) s) as (A & B & C & D).
    assert (E : mine (clear_loop own s (d_slots s)) = []).
    { rewrite A. assert (H : forall x, In x (mine s) -> In (q_id x) (somes (d_slots s))).
      { intros x Hx. rewrite (i_slots _ I). apply in_map. auto. }
      revert H. generalize (somes (d_slots s)). clear. intro l. induction (mine s) as [|x q IH]; cbn; intro H; auto.
      assert (E : existsb (fun b => q_id x =? b) l = true).
      { apply existsb_exists. exists (q_id x). split; [auto|apply Z.eqb_refl]. }
      rewrite E. cbn. auto. }
    eexists. split; [reflexivity|]. split.
    + constructor; cbn; [apply D, (i_nodup _ I)|auto|]. unfold own_entries in *. cbn. rewrite E. auto.
    + intros p Hp. exists []. cbn [d_delay d_out d_slots set_slots]. rewrite B, C. split; [constructor|].
      rewrite pending_body. unfold own_entries in *. cbn. rewrite E. auto.
  - eexists. split; [reflexivity|]. split; [constructor; cbn; apply I|].
    intros p Hp. exists p. cbn [d_delay d_out d_slots set_slots]. split; [constructor|auto].
  - cbn [delay_step]. destruct (Z.eqb_spec dest own) as [Hd|Hd].
    { exists s. split; [auto|]. split; [auto|]. intros p Hp. exists p. split; [constructor|auto]. }
    unfold schedule. cbn [fst]. set (a := fresh (ids (d_queue s))). set (e := mkQ ts a dest m).
    assert (Pe : Permutation (enqueue (d_queue s) e) (e :: d_queue s)) by apply enqueue_perm.
    assert (Pm : Permutation (filter isown (enqueue (d_queue s) e)) (mine s)).
    { rewrite (filter_perm _ _ _ Pe). cbn. destruct (Z.eqb_spec dest own); [tauto|]. reflexivity. }
    eexists. split; [reflexivity|]. split.
    + constructor; cbn.
      * eapply Permutation_NoDup; [symmetry; apply Permutation_map; apply Pe|]. cbn. constructor.
        -- apply fresh_ok. -- apply (i_nodup _ I).
      * apply (i_len _ I).
      * unfold own_entries. cbn. unfold ids. rewrite (Permutation_map _ Pm). apply (i_slots _ I).
    + intros p Hp. exists p. cbn [d_delay d_out d_slots set_slots]. split; [constructor|].
      rewrite pending_body. unfold own_entries. cbn. rewrite (body_perm _ _ Pm). auto.
  - cbn [delay_step]. destruct (d_queue s) as [|e q] eqn:Eq.
    { exists s. split; [auto|]. split; [auto|]. intros p Hp. exists p. split; [constructor|auto]. }
    pose proof (i_nodup _ I) as N. rewrite Eq in N. cbn in N.
    inversion N as [|y l N1 N2]; subst.
    destruct (Z.eqb_spec (q_dest e) own) as [Hd|Hd].
    + set (s1 := sendMessage hook s (q_ts e) (q_id e) (q_msg e)).
      assert (Ns1 : NoDup (ids (d_queue s1))).
      { unfold s1, sendMessage. apply (hq_nodup HQ). cbn. rewrite Eq. auto. }
      destruct (hq_head HQ (log (set_slots s (clear_executing (d_slots s) (q_id e))) (q_ts e) (q_msg e))
         (q_ts e) (q_msg e) e q) as (q' & Hq'); [cbn; auto|lia|].
      assert (Hq1 : d_queue s1 = e :: q') by exact Hq'.
      assert (Hm : mine s = e :: filter isown q).
      { unfold own_entries. rewrite Eq. cbn. destruct (Z.eqb_spec (q_dest e) own); [auto|tauto]. }
      assert (Hm1 : filter isown q' = filter isown q).
      { pose proof (sendMessage_mine s (q_ts e) (q_id e) (q_msg e)) as H. fold s1 in H. rewrite Hm in H.
        unfold own_entries in H. rewrite Hq1 in H. cbn in H. destruct (Z.eqb_spec (q_dest e) own); [|tauto]. congruence. }
      assert (Ns : NoDup (somes (d_slots s))).
      { eapply Permutation_NoDup; [symmetry; apply (i_slots _ I)|]. unfold own_entries. apply ids_nodup_filter, (i_nodup _ I). }
      assert (Hs1 : d_slots s1 = clear_executing (d_slots s) (q_id e)) by apply sendMessage_slots.
      assert (Ho1 : d_out s1 = d_out s ++ [(q_ts e, q_msg e)]) by apply sendMessage_out.
      assert (Hd1 : d_delay s1 = d_delay s) by apply sendMessage_delay.
      clearbody s1. exists (mkD q' (d_delay s) (clear_executing (d_slots s) (q_id e)) (d_out s ++ [(q_ts e, q_msg e)])).
      split; [rewrite Hq1, Hs1, Ho1, Hd1; reflexivity|]. split.
      * constructor; cbn.
        -- rewrite Hq1 in Ns1. cbn in Ns1. inversion Ns1; auto.
        -- rewrite clear_exec_len. apply (i_len _ I).
        -- rewrite clear_exec_somes by auto.
           unfold own_entries. cbn. rewrite Hm1.
           rewrite (filter_perm _ _ _ (i_slots _ I)), Hm. cbn. rewrite Z.eqb_refl. cbn.
           rewrite filter_all; [auto|]. intros x Hx.
           assert (x <> q_id e); [|lia]. intros ->. apply N1.
           unfold ids in *. rewrite in_map_iff in *. destruct Hx as (z & Z1 & Z2). apply filter_In in Z2. exists z. tauto.
      * intros p Hp. cbn [d_delay d_out d_slots set_slots]. rewrite pending_body, Hm in Hp. cbn in Hp.
        assert (Hin : In (q_ts e, q_msg e) p) by (rewrite <- Hp; left; auto).
        apply in_split in Hin. destruct Hin as (p1 & p2 & ->).
        exists (p1 ++ p2). split; [constructor|].
        rewrite pending_body. unfold own_entries. cbn. rewrite Hm1.
        eapply Permutation_cons_app_inv. exact Hp.
    + eexists. split; [reflexivity|]. rewrite Eq. cbn [tl].
      assert (Hm : mine s = filter isown q).
      { unfold own_entries. rewrite Eq. cbn. destruct (Z.eqb_spec (q_dest e) own); [tauto|auto]. }
      split.
      * constructor; cbn; [auto|apply (i_len _ I)|]. change (Permutation (somes (d_slots s)) (ids (filter isown q))). rewrite <- Hm. apply (i_slots _ I).
      * intros p Hp. exists p. cbn [d_delay d_out d_slots set_slots]. split; [constructor|]. rewrite pending_body in *.
        unfold own_entries at 1. cbn [d_queue]. rewrite <- Hm. auto.
Qed.

Lemma Inv_init d : Inv (cDelay_init d).
Proof. constructor; cbn; auto. constructor. Qed.

Lemma run_spec ops : forall s p, Inv s -> Permutation (pending own s) p ->
  match delay_run own fresh hook s ops with
  | Ok s' => exists p', spec_run (mkSpec p (d_delay s) (d_out s)) ops (mkSpec p' (d_delay s') (d_out s'))
               /\ Permutation (pending own s') p'
  | AssertFail => exists ops1 now m ops2 s1, ops = ops1 ++ Arrive now m :: ops2 /\
       delay_run own fresh hook s ops1 = Ok s1 /\ length (pending own s1) = 8%nat
  | UB => False
  end.
Proof.
  induction ops as [|o ops IH]; intros s p I Hp.
  { cbn. exists p. split; [constructor|auto]. }
  assert (D : (forall now m, o = Arrive now m -> length (mine s) < 8)%nat \/
              (exists now m, o = Arrive now m /\ length (mine s) = 8%nat)).
  { destruct o as [now m| | | | |]; try (left; intros; discriminate).
    destruct (Nat.ltb_spec (length (mine s)) 8) as [H|H]; [left; auto|right].
    exists now, m. split; auto. pose proof (Permutation_length (i_slots _ I)) as L. unfold ids in L. rewrite map_length in L.
    assert (forall l, (length (somes l) <= length l)%nat).
    { induction l as [|[y|] l IHl]; cbn; lia. } specialize (H0 (d_slots s)). rewrite (i_len _ I) in H0. lia. }
  destruct D as [D|(now & m & -> & L8)].
  - destruct (step_spec s o I D) as (s' & A & B & C). cbn [delay_run]. rewrite A. cbn [obind].
    destruct (C p Hp) as (p' & S1 & Hp'). specialize (IH s' p' B Hp').
    destruct (delay_run own fresh hook s' ops) as [s2| |]; auto.
    + destruct IH as (p2 & R & Hp2). exists p2. split; [econstructor; eauto|auto].
    + destruct IH as (ops1 & now & m & ops2 & s1 & -> & R & L). exists (o :: ops1), now, m, ops2, s1.
      split; [auto|]. split; [|auto]. cbn [delay_run]. rewrite A. exact R.
  - cbn [delay_run delay_step]. unfold on_message.
    pose proof (Permutation_length (i_slots _ I)) as L. unfold ids in L. rewrite map_length in L.
    destruct (first_free (d_slots s)) as [k|] eqn:E.
    + apply first_free_some in E. rewrite (i_len _ I) in E. lia.
    + cbn. exists [], now, m, ops, s. split; [auto|]. split; [auto|].
      rewrite pending_body. unfold body. rewrite map_length. auto.
Qed.
End P.

(** A downstream that schedules something else is quiet. *)
Lemma schedule_quiet {M : Type} own fresh dest after : (forall l, ~ In (fresh l) l) -> dest <> own -> 0 <= after ->
  hook_quiet (M := M) own (fun s t m => fst (schedule fresh s (t + after) dest m)).
Proof.
  intros F D A. constructor; intros; cbn; auto.
  - unfold own_entries. cbn. unfold enqueue.
    set (e := mkQ (t + after) (fresh (ids (d_queue s))) dest m).
    assert (K : (q_dest e =? own) = false) by (cbn; lia).
    assert (H : forall q, filter (fun e => q_dest e =? own) (insert_before_later e q) = filter (fun e => q_dest e =? own) q).
    { induction q as [|x q IH]; cbn [insert_before_later filter]; [rewrite K; auto|].
      destruct (q_ts e <? q_ts x); cbn [filter]; rewrite ?K, ?IH; auto. }
    destruct (d_queue s) as [|x q]; [cbn [filter]; rewrite K; auto|].
    destruct (q_ts e <? q_ts x); [cbn [filter]; rewrite K; auto|].
    destruct (q_ts (last (x :: q) x) <=? q_ts e); [|apply H].
    rewrite filter_app. cbn [filter]. rewrite K, app_nil_r. auto.
  - eapply Permutation_NoDup; [symmetry; apply Permutation_map, enqueue_perm|]. cbn. constructor; auto.
  - rewrite H. unfold enqueue. cbn [q_ts]. destruct (Z.ltb_spec (t + after) (q_ts e)); [lia|].
    destruct (q_ts (last (e :: q) e) <=? t + after); [eexists; reflexivity|].
    cbn [insert_before_later q_ts]. destruct (Z.ltb_spec (t + after) (q_ts e)); [lia|]. eexists. reflexivity.
Qed.
