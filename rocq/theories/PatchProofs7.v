(** delay and metro. *)
From Verif Require Import PatchProofs PatchProofs2 PatchProofs3 PatchProofs4 PatchSpec PatchSpec2.
From Coq Require Import Lia.
Open Scope Z_scope.

Lemma plays_next E fp ts wq tasks w w1 : fire fp w = Some (ts, wq, tasks) -> runs E fp ts wq tasks w1 -> plays E fp w [Due] w1.
Proof. intros H1 H2. eapply plays_due; [exact H1 | exact H2 | apply plays_nil]. Qed.
Lemma plays_none E fp w : fire fp w = None -> plays E fp w [Due] w.
Proof. intros H. eapply plays_idle; [exact H | apply plays_nil]. Qed.

Lemma drop_nil n : drop_node n [] = []. Proof. reflexivity. Qed.
Lemma drop_one n t m : drop_node n [(t, n, m)] = [].
Proof. unfold drop_node, of_node. cbn. rewrite Nat.eqb_refl. reflexivity. Qed.
Lemma pending_nil n : pending n [] = O. Proof. reflexivity. Qed.
Lemma enqueue_nil e : enqueue e [] = [e]. Proof. reflexivity. Qed.
Ltac queues := first [rewrite drop_nil | rewrite drop_one | rewrite pending_nil | rewrite enqueue_nil].

Definition stop_cases := [LS (T "stop")].
Definition stop_words : list Z := [hv_string_to_hash (T "stop"); hv_string_to_hash (T "symbol")].
Lemma stop_float E x : plain E stop_words x -> switch_outlet E stop_cases [EF x] = Ok 1%nat.
Proof.
  intros H. pose proof (Forall_inv H) as H1. pose proof (Forall_inv (Forall_inv_tail H)) as H2. cbv beta in H1, H2. clear H.
  apply (switch_float E stop_cases); [exact H2 |]. constructor; [exact H1 | constructor].
Qed.
Lemma stop_bang E : switch_outlet E stop_cases [EB] = Ok 1%nat.
Proof. reflexivity. Qed.
Lemma stop_stop E : switch_outlet E stop_cases [word "stop"] = Ok 0%nat.
Proof. reflexivity. Qed.

(** ** delay *)
Definition delay_ok (E : env) (samples : f32 -> Z) (l : list (moment delay_in)) : Prop :=
  Forall (fun e => match e with
                   | At _ (DNum ms) => plain E stop_words ms /\ ms_to_samples (e_sr E) ms = Ok (samples ms)
                   | At _ (DTime ms) => ms_to_samples (e_sr E) ms = Ok (samples ms)
                   | _ => True end) l.
Definition delay_nodes (d : Z) : list prim :=
  [PPass; PPass; PPass; PSwitch stop_cases; PBox [[TE (word "clear")]]; PDelay d; PSeq [CB; CA; CA]].
Definition delay_queue (p : option Z) : list (Z * nat * msg) := match p with Some t => [(t, 5%nat, [EB])] | None => [] end.
Inductive delay_inv : Z * option Z -> world -> Prop :=
| delay_i d p s : delay_inv (d, p) (mkWorld (delay_nodes d) (delay_queue p) s).
Lemma delay_sends E samples d l : delay_ok E samples l ->
  sends E (delay_pd d) (map delay_event l) (delay_spec samples d None l).
Proof.
  intros Hok.
  destruct (simulate E (flatten (delay_pd d) 0) (Z * option Z) _ delay_event (fun s => delay_spec samples (fst s) (snd s)) delay_inv (fun _ => delay_ok E samples))
    with (s := (d, None : option Z)) (l := l) (w := boot (flatten (delay_pd d) 0))
    as (w & Hp & Hs); [reflexivity | | exact Hok | exact (delay_i d None [])
                      | refine (sends_of E _ _ _ w _ Hp Hs); reflexivity].
  clear Hok. intros v e l' w Hok Hi; destruct Hi as [d' p s].
  pose proof (Forall_inv Hok) as Hx. pose proof (Forall_inv_tail Hok) as Hl. fold (delay_ok E samples l') in Hl. cbv beta in Hx.
  destruct e as [t [| ms | | ms] |]; cbn [delay_event delay_spec fst snd].
  - pose proof (stop_bang E) as Hsw. norm_in Hsw. eexists (d', Some (t + d')), [], _.
    destruct p; (split; [apply plays_one; norm; run ltac:(first [rewrite Hsw | queues]) |]);
    (split; [constructor | split; [cbn; now rewrite log_nil | split; [reflexivity | exact Hl]]]).
  - destruct Hx as [Hw Hms]. pose proof (stop_float E ms Hw) as Hsw. norm_in Hsw. eexists (samples ms, Some (t + samples ms)), [], _.
    destruct p; (split; [apply plays_one; norm; run ltac:(first [rewrite Hsw | rewrite Hms | queues]) |]);
    (split; [constructor | split; [cbn; now rewrite log_nil | split; [reflexivity | exact Hl]]]).
  - pose proof (stop_stop E) as Hsw. norm_in Hsw. eexists (d', None), [], _.
    destruct p; (split; [apply plays_one; norm; run ltac:(first [rewrite Hsw | queues]) |]);
    (split; [constructor | split; [cbn; now rewrite log_nil | split; [reflexivity | exact Hl]]]).
  - eexists (samples ms, p), [], _.
    (split; [apply plays_one; norm; run ltac:(first [rewrite Hx | queues]) |]);
    (split; [constructor | split; [cbn; now rewrite log_nil | split; [reflexivity | exact Hl]]]).
  - destruct p as [ts |].
    + eexists (d', None), [_], _. split; [eapply plays_next; [reflexivity | norm; run queues] |].
      (split; [exact (delay_i d' None _) | split; [reflexivity | split; [reflexivity | exact Hl]]]).
    + eexists (d', None), [], _. split; [apply plays_none; reflexivity |].
      (split; [exact (delay_i d' None _) | split; [cbn; now rewrite log_nil | split; [reflexivity | exact Hl]]]).
Qed.

(** ** metro *)
Definition metro_cases := [LN fzero; LS (T "stop")].
Lemma metro_float E x : plain E metro_words x -> switch_outlet E metro_cases [EF x] = Ok 2%nat.
Proof.
  intros H. pose proof (Forall_inv H) as H1. pose proof (Forall_inv (Forall_inv_tail H)) as H2.
  pose proof (Forall_inv (Forall_inv_tail (Forall_inv_tail H))) as H3. cbv beta in H1, H2, H3. clear H.
  apply (switch_float E metro_cases); [exact H3 |]. constructor; [exact H1 | constructor; [exact H2 | constructor]].
Qed.
Lemma metro_bang E : switch_outlet E metro_cases [EB] = Ok 2%nat.
Proof. reflexivity. Qed.
Lemma metro_zero E : switch_outlet E metro_cases [EF fzero] = Ok 0%nat.
Proof. reflexivity. Qed.
Lemma metro_stop E : switch_outlet E metro_cases [word "stop"] = Ok 1%nat.
Proof. reflexivity. Qed.
(** The period the patch computes. *)
Definition metro_rate (E : env) : f32 := fdiv (narrow (e_sr E)) (of_int 1000).
Definition metro_period (E : env) (ms : f32) : outcome Z := to_u32 (fmax fzero (fmax (fmul ms (metro_rate E)) (of_int 1))).
Definition metro_ok (E : env) (samples : f32 -> Z) (l : list (moment metro_in)) : Prop :=
  Forall (fun e => match e with
                   | At _ (MNum x) => plain E metro_words x
                   | At _ (MPeriod ms) => metro_period E ms = Ok (samples ms)
                   | _ => True end) l.
Definition metro_nodes (E : env) (ms : f32) (d : Z) : list prim :=
  [PPass; PPass; PPass; PSwitch metro_cases; PBox [[TE (word "clear")]]; PSeq [CA; CA]; PDelay d; PPass; PSeq [CB]; PPass; PSeq [CA; CA];
   PBinK MAX (of_int 1); PPass; PPass; PBox [[TE (word "samplerate")]]; PSystem; PBinK DIVIDE (of_int 1000); PBin MULTIPLY (metro_rate E);
   PVar (EF ms); PPass; PPass; PPass; PSeq [CA; CA]; PPass].
Definition metro_queue (p : option Z) : list (Z * nat * msg) := match p with Some t => [(t, 6%nat, [EB])] | None => [] end.
Inductive metro_inv (E : env) : Z * option Z -> world -> Prop :=
| metro_i ms d p s : metro_inv E (d, p) (mkWorld (metro_nodes E ms d) (metro_queue p) s).
Lemma thousand : feqb (of_int 1000) fzero = false.
Proof. reflexivity. Qed.
Lemma metro_load E k d : metro_period E k = Ok d -> let fp := flatten (metro_pd k) 0 in
  runs E fp 0 (boot fp) (load_tasks fp) (mkWorld (metro_nodes E k d) [] []).
Proof.
  intros Hd. cbv zeta. norm_in Hd. norm. run ltac:(first [rewrite thousand | rewrite Hd | queues]).
Qed.
Lemma metro_sends E samples k l : metro_period E k = Ok (samples k) -> metro_ok E samples l ->
  sends E (metro_pd k) (map metro_event l) (metro_spec samples (samples k) None l).
Proof.
  intros Hk Hok. pose proof (metro_load E k _ Hk) as Hload. cbv zeta in Hload.
  destruct (simulate E (flatten (metro_pd k) 0) (Z * option Z) _ metro_event (fun s => metro_spec samples (fst s) (snd s)) (metro_inv E) (fun _ => metro_ok E samples))
    with (s := (samples k, None : option Z)) (l := l) (w := mkWorld (metro_nodes E k (samples k)) [] [])
    as (w & Hp & Hs); [reflexivity | | exact Hok | exact (metro_i E k (samples k) None [])
                      | exact (sends_loaded E _ _ _ _ w Hload Hp Hs)].
  clear Hok Hload. intros v e l' w Hok Hi; destruct Hi as [ms' d' p s].
  pose proof (Forall_inv Hok) as Hx. pose proof (Forall_inv_tail Hok) as Hl. fold (metro_ok E samples l') in Hl. cbv beta in Hx.
  destruct e as [t [| x | | | ms] |]; cbn [metro_event metro_spec fst snd].
  - pose proof (metro_bang E) as Hsw. norm_in Hsw. eexists (d', Some (t + d')), [_], _.
    destruct p; (split; [apply plays_one; norm; run ltac:(first [rewrite Hsw | queues]) |]);
    (split; [constructor | split; [reflexivity | split; [reflexivity | exact Hl]]]).
  - pose proof (metro_float E x Hx) as Hsw. norm_in Hsw. eexists (d', Some (t + d')), [_], _.
    destruct p; (split; [apply plays_one; norm; run ltac:(first [rewrite Hsw | queues]) |]);
    (split; [constructor | split; [reflexivity | split; [reflexivity | exact Hl]]]).
  - pose proof (metro_zero E) as Hsw. norm_in Hsw. eexists (d', None), [], _.
    destruct p; (split; [apply plays_one; norm; run ltac:(first [rewrite Hsw | queues]) |]);
    (split; [constructor | split; [cbn; now rewrite log_nil | split; [reflexivity | exact Hl]]]).
  - pose proof (metro_stop E) as Hsw. norm_in Hsw. eexists (d', None), [], _.
    destruct p; (split; [apply plays_one; norm; run ltac:(first [rewrite Hsw | queues]) |]);
    (split; [constructor | split; [cbn; now rewrite log_nil | split; [reflexivity | exact Hl]]]).
  - eexists (samples ms, p), [], _. norm_in Hx.
    (split; [apply plays_one; norm; run ltac:(first [rewrite Hx | rewrite thousand | queues]) |]);
    (split; [constructor | split; [cbn; now rewrite log_nil | split; [reflexivity | exact Hl]]]).
  - destruct p as [ts |].
    + eexists (d', Some (ts + d')), [_], _. split; [eapply plays_next; [reflexivity | norm; run queues] |].
      (split; [exact (metro_i E _ d' (Some (ts + d')) _) | split; [reflexivity | split; [reflexivity | exact Hl]]]).
    + eexists (d', None), [], _. split; [apply plays_none; reflexivity |].
      (split; [exact (metro_i E _ d' None _) | split; [cbn; now rewrite log_nil | split; [reflexivity | exact Hl]]]).
Qed.
