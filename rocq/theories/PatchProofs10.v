(** makenote and stripnote. *)
From Verif Require Import PatchProofs PatchProofs2 PatchProofs3 PatchProofs4 PatchProofs7 PatchProofs9 PatchSpec PatchSpec2.
From Coq Require Import Lia.
Open Scope Z_scope.

(** ** makenote *)
Definition make_nodes (v : f32) (b : bool) (dur : f32) (d : Z) : list prim :=
  [PPass; PPass; PPass; PBox [[TE (EF (of_int 0))]]; PPass; PVar (EF dur); PPass; PPass; PPass; PBinK MAX fzero; PPass; PPass;
   PPass; PDelay d; PPass; PPass; PPass; PPass; PPass; PIf b; PVar (EF v); PPass; PPass; PPass; PVar (EF v); PPass;
   PPass; PPass; PBinK NEQ fzero; PSeq [CA; CA]; PSeq [CA; CA]; PSeq [CA; CA]; PSeq [CA; CA]; PSeq [CA; CB]].
Definition make_queue (q : list (Z * f32)) : list (Z * nat * msg) := map (fun e => (fst e, 13%nat, [EF (snd e)])) q.
Lemma make_pending q : pending 13 (make_queue q) = List.length q.
Proof. induction q as [| e q IH]; [reflexivity |]. cbn. f_equal. exact IH. Qed.
Lemma make_enqueue t p q : enqueue (t, 13%nat, [EF p]) (make_queue q) = make_queue (by_time (t, p) q).
Proof.
  induction q as [| [u x] q IH]; [reflexivity |]. cbn [make_queue map enqueue by_time fst snd].
  destruct (t <? u); [reflexivity |]. cbn [map]. f_equal. exact IH.
Qed.
Lemma by_time_length {A} (e : Z * A) q : List.length (by_time e q) = S (List.length q).
Proof. induction q as [| x q IH]; [reflexivity | cbn; destruct (fst e <? fst x); cbn; [reflexivity | now rewrite IH]]. Qed.
Definition duration (E : env) (ms : f32) : outcome Z := ms_to_samples (e_sr E) (fmax ms fzero).
Definition durations_ok (E : env) (samples : f32 -> Z) (l : list (moment make_in)) : Prop :=
  Forall (fun e => match e with At _ (KDur ms) => duration E ms = Ok (samples ms) | _ => True end) l.
Inductive make_inv : f32 * Z * list (Z * f32) -> world -> Prop :=
| make_i v b dur d q s : feqb v fzero = negb b -> make_inv (v, d, q) (mkWorld (make_nodes v b dur d) (make_queue q) s).
Lemma make_load E k1 k2 d : duration E k2 = Ok d -> let fp := flatten (makenote_pd k1 k2) 0 in
  runs E fp 0 (boot fp) (load_tasks fp) (mkWorld (make_nodes k1 (negb (feqb k1 fzero)) k2 d) [] []).
Proof.
  intros Hd. cbv zeta. norm_in Hd. norm.
  destruct (feqb k1 fzero) eqn:Hk; run ltac:(first [rewrite Hk | rewrite Hd | queues | consts]).
Qed.
Local Opaque by_time make_queue.
Lemma make_sends E samples k1 k2 l : duration E k2 = Ok (samples k2) -> durations_ok E samples l -> make_ok samples k1 (samples k2) [] l ->
  sends E (makenote_pd k1 k2) (map make_event l) (make_spec samples k1 (samples k2) [] l).
Proof.
  intros Hk Hd Hok. pose proof (make_load E k1 k2 _ Hk) as Hload. cbv zeta in Hload.
  destruct (simulate E (flatten (makenote_pd k1 k2) 0) (f32 * Z * list (Z * f32)) _ make_event
              (fun s => make_spec samples (fst (fst s)) (snd (fst s)) (snd s)) make_inv
              (fun s l => make_ok samples (fst (fst s)) (snd (fst s)) (snd s) l /\ durations_ok E samples l))
    with (s := (k1, samples k2, @nil (Z * f32))) (l := l) (w := mkWorld (make_nodes k1 (negb (feqb k1 fzero)) k2 (samples k2)) [] [])
    as (w & Hp & Hs); [reflexivity | | exact (conj Hok Hd) | exact (make_i k1 (negb (feqb k1 fzero)) k2 (samples k2) [] [] (eq_sym (Bool.negb_involutive _)))
                      | exact (sends_loaded E _ _ _ _ w Hload Hp Hs)].
  clear Hok Hd Hload Hk l. intros v e l w [Hok Hd] Hi; destruct Hi as [v b dur d q s Hb].
  pose proof (Forall_inv Hd) as Hx. pose proof (Forall_inv_tail Hd) as Hl. fold (durations_ok E samples l) in Hl. cbv beta in Hx.
  destruct e as [t [p | v' | ms] |]; cbn [make_event make_spec make_ok fst snd] in Hok |- *; destruct Hok as [Hlen Hok].
  - destruct b; cbn [negb] in Hb; rewrite Hb in Hok |- *; cycle 1.
    + eexists (v, d, q), [], _. split; [apply plays_one; norm; run ltac:(first [rewrite Hb | consts]) |].
      split; [constructor; (exact Hb || exact Hv) | split; [cbn; now rewrite log_nil | split; [reflexivity | exact (conj Hok Hl)]]].
    + assert (Hpend : Nat.ltb (pending 13 (make_queue q)) 8 = true).
      { apply Nat.ltb_lt. rewrite make_pending. destruct l; destruct Hok as [Hlen' _]; rewrite by_time_length in Hlen'; lia. }
      pose proof (make_enqueue (t + d) p q) as Henq. norm_in Hpend. norm_in Henq.
      eexists (v, d, by_time (t + d, p) q), (note_msgs t p v), _.
      split; [apply plays_one; norm; run ltac:(first [rewrite Hb | rewrite Hpend | rewrite Henq | consts]) |].
      split; [constructor; (exact Hb || exact Hv) | split; [unfold log; cbn [sent]; now rewrite <- app_assoc | split; [reflexivity | exact (conj Hok Hl)]]].
  - destruct (feqb v' fzero) eqn:Hv; eexists (v', d, q), [], _.
    all: split; [apply plays_one; norm; run ltac:(first [rewrite Hv | consts]) |].
    all: split; [constructor; (exact Hb || exact Hv) | split; [cbn; now rewrite log_nil | split; [reflexivity | exact (conj Hok Hl)]]].
  - norm_in Hx. eexists (v, samples ms, q), [], _. split; [apply plays_one; norm; run ltac:(first [rewrite Hx | consts]) |].
    split; [constructor; (exact Hb || exact Hv) | split; [cbn; now rewrite log_nil | split; [reflexivity | exact (conj Hok Hl)]]].
  - destruct q as [| [ts p] q].
    + eexists (v, d, []), [], _. split; [apply plays_none; reflexivity |].
      split; [constructor; (exact Hb || exact Hv) | split; [cbn; now rewrite log_nil | split; [reflexivity | exact (conj Hok Hl)]]].
    + eexists (v, d, q), (note_msgs ts p fzero), _. split; [eapply plays_next; [reflexivity | norm; run queues] |].
      split; [constructor; (exact Hb || exact Hv) | split; [unfold log; cbn [sent]; now rewrite <- app_assoc | split; [reflexivity | exact (conj Hok Hl)]]].
Qed.
(** The ninth pending note. *)
Lemma make_note_step E k1 k2 v dur d q s t p : feqb v fzero = false -> (List.length q < 8)%nat ->
  exists s', plays E (flatten (makenote_pd k1 k2) 0) (mkWorld (make_nodes v true dur d) (make_queue q) s) [make_event (At t (KNote p))]
    (mkWorld (make_nodes v true dur d) (make_queue (by_time (t + d, p) q)) s').
Proof.
  intros Hb Hlen. assert (Hpend : Nat.ltb (pending 13 (make_queue q)) 8 = true) by (apply Nat.ltb_lt; rewrite make_pending; exact Hlen).
  pose proof (make_enqueue (t + d) p q) as Henq. norm_in Hpend. norm_in Henq.
  eexists. apply plays_one; norm; run ltac:(first [rewrite Hb | rewrite Hpend | rewrite Henq | consts]).
Qed.
Definition notes (l : list (Z * f32)) : list event := map (fun e => make_event (At (fst e) (KNote (snd e)))) l.
Lemma make_notes E k1 k2 v dur d : feqb v fzero = false -> forall l q s, (List.length q + List.length l <= 8)%nat ->
  exists q' s', List.length q' = (List.length q + List.length l)%nat /\
    plays E (flatten (makenote_pd k1 k2) 0) (mkWorld (make_nodes v true dur d) (make_queue q) s) (notes l)
      (mkWorld (make_nodes v true dur d) (make_queue q') s').
Proof.
  intros Hv. induction l as [| [t p] l IH]; intros q s Hlen; cbn [List.length] in Hlen.
  - exists q, s. split; [cbn; lia | apply plays_nil].
  - destruct (make_note_step E k1 k2 v dur d q s t p Hv ltac:(lia)) as (s1 & H1).
    destruct (IH (by_time (t + d, p) q) s1) as (q' & s' & Hq & H2); [rewrite by_time_length; lia |].
    exists q', s'. split; [rewrite Hq, by_time_length; cbn [List.length]; lia |].
    change (notes ((t, p) :: l)) with ([make_event (At t (KNote p))] ++ notes l). eapply plays_app; eassumption.
Qed.
Lemma exec_next E (p : flat) now fuel w t rest w1 ts r : step E p now w t = Ok (w1, ts) ->
  exec E p now fuel w1 (ts ++ rest) = Some r -> exec E p now (S fuel) w (t :: rest) = Some r.
Proof. intros H1 H2. cbn [exec]. rewrite H1. exact H2. Qed.
Lemma exec_abort E (p : flat) now w t rest : step E p now w t = AssertFail -> exec E p now 1 w (t :: rest) = Some AssertFail.
Proof. intros H. cbn [exec]. now rewrite H. Qed.
Lemma make_overflow E k1 k2 d l : duration E k2 = Ok d -> feqb k1 fzero = false -> List.length l = 9%nat ->
  fails E (makenote_pd k1 k2) (notes l) AssertFail.
Proof.
  intros Hd Hv Hlen. pose proof (make_load E k1 k2 _ Hd) as Hload. cbv zeta in Hload. rewrite Hv in Hload. cbn [negb] in Hload.
  destruct (exists_last (l := l)) as (l8 & [t p] & ->); [intros ->; discriminate Hlen |].
  rewrite app_length in Hlen. cbn [List.length] in Hlen.
  destruct (make_notes E k1 k2 k1 k2 d Hv l8 [] []) as (q & s & Hq & Hp); [cbn; lia |]. cbn [List.length] in Hq.
  assert (Hpend : Nat.ltb (pending 13 (make_queue q)) 8 = false) by (apply Nat.ltb_ge; rewrite make_pending; lia).
  eexists _, _, (notes l8), O, t, [EF p], _. split; [unfold notes; rewrite map_app; reflexivity |].
  split; [exact Hload |]. split; [exact Hp |]. split; [| exact I]. norm. norm_in Hpend.
  repeat (eapply exec_next; [norm; repeat (progress (first [rewrite Hv | rewrite Hpend | consts]); norm); reflexivity | cbn [app]]).
  eapply exec_abort. norm. repeat (progress (first [rewrite Hv | rewrite Hpend | consts]); norm). reflexivity.
Qed.

(** ** stripnote *)
Definition strip_nodes (b1 b2 b3 b4 : bool) (a v : f32) : list prim :=
  [PPass; PPass; PPass; PSlice 1 1; PPass; PSlice 0 1; PPass; PPass; PPass; PPass; PPass; PIf b1;
   PBinK NEQ fzero; PPass; PPass; PPass; PIf b2; PPass; PPass; PPass; PPass; PIf b3;
   PSeq [CF; CF]; PPass; PSlice 1 1; PPass; PSlice 0 1; PPass; PSeq [CA; CA]; PVar (EF (of_int 0)); PPass; PPass; PPass;
   PBox [[TE (EF (of_int 0))]]; PBox [[TE (EF (of_int 1))]]; PPass; PPass; PPass; PIf b4;
   PPack [EF a; EF v]; PSeq [CB; CF; CB]; PBinK EQ fzero].
Inductive strip_inv : f32 -> world -> Prop :=
| strip_i b1 b2 b3 b4 a v s : strip_inv v (mkWorld (strip_nodes b1 b2 b3 b4 a v) [] s).
Definition strip_ok (l : list (Z * strip_in)) : Prop :=
  Forall (fun e => match snd e with NList _ v => feqb v fzero = false | _ => True end) l.
Lemma strip_sends E l : strip_ok l -> sends E stripnote_pd (map strip_event l) (strip_spec (of_int 0) l).
Proof.
  intros Hok.
  destruct (simulate E (flatten stripnote_pd 0) f32 _ strip_event strip_spec strip_inv (fun _ => strip_ok))
    with (s := of_int 0) (l := l) (w := boot (flatten stripnote_pd 0))
    as (w & Hp & Hs); [reflexivity | | exact Hok | | refine (sends_of E _ _ _ w _ Hp Hs); reflexivity].
  2: { exact (strip_i (negb (feqb fzero fzero)) (negb (feqb fzero fzero)) (negb (feqb fzero fzero)) (negb (feqb fzero fzero)) (of_int 0) (of_int 0) []). }
  clear. intros v [t i] l w Hok Hi; destruct Hi as [b1 b2 b3 b4 a v s].
  pose proof (Forall_inv Hok) as Hx. pose proof (Forall_inv_tail Hok) as Hl. fold (strip_ok l) in Hl. cbn [snd] in Hx.
  destruct i as [p | y | p y]; cbn [strip_event strip_spec].
  - destruct (feqb v fzero) eqn:Hv.
    + eexists v, [], _. split; [apply plays_one; norm; run ltac:(first [rewrite Hv | rewrite int_zero_zero | rewrite one_one | consts]) |].
      split; [constructor | split; [cbn; now rewrite log_nil | split; [reflexivity | exact Hl]]].
    + eexists v, (note_msgs t p v), _. split; [apply plays_one; norm; run ltac:(first [rewrite Hv | rewrite int_zero_zero | rewrite one_one | consts]) |].
      split; [constructor | split; [unfold log; cbn [sent]; now rewrite <- app_assoc | split; [reflexivity | exact Hl]]].
  - eexists y, [], _. split; [apply plays_one; norm; run consts |].
    split; [constructor | split; [cbn; now rewrite log_nil | split; [reflexivity | exact Hl]]].
  - rewrite Hx. eexists y, (note_msgs t p y), _.
    split; [apply plays_one; norm; run ltac:(first [rewrite Hx | rewrite int_zero_zero | rewrite one_one | consts]) |].
    split; [constructor | split; [unfold log; cbn [sent]; now rewrite <- app_assoc | split; [reflexivity | exact Hl]]].
Qed.
(** A note of velocity 0 in a list does not change the velocity. *)
Lemma strip_list_zero E t1 t2 t3 p v p2 p3 : feqb v fzero = false ->
  sends E stripnote_pd (map strip_event [(t1, NList p v); (t2, NList p2 fzero); (t3, NPitch p3)])
    (note_msgs t1 p v ++ note_msgs t3 p3 v).
Proof.
  intros Hv. cbn [map strip_event].
  eapply sends_of; [reflexivity | | ].
  - eapply plays_in; [norm; run ltac:(first [rewrite Hv | rewrite int_zero_zero | rewrite one_one | consts]) |].
    eapply plays_in; [norm; run ltac:(first [rewrite Hv | rewrite int_zero_zero | rewrite one_one | consts]) |].
    eapply plays_in; [norm; run ltac:(first [rewrite Hv | rewrite int_zero_zero | rewrite one_one | consts]) |].
    apply plays_nil.
  - reflexivity.
Qed.
