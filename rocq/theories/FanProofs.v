(** Flat patches of any size. *)
From Verif Require Import PatchProofs PatchProofs2 FanSpec.
From Coq Require Import Lia.
Open Scope Z_scope.

(** ** Flattening patches without nesting *)
Definition simple (it : item) : bool := match it with IObj _ | IIn _ | IOut _ => true | _ => false end.
Definition prim_of (it : item) : prim := match it with IObj p => p | _ => PPass end.
Fixpoint ins_of (l : list item) (b : nat) : list (Z * nat) :=
  match l with [] => [] | IIn x :: l' => (x, b) :: ins_of l' (S b) | _ :: l' => ins_of l' (S b) end.
Fixpoint outs_of (l : list item) (b : nat) : list (Z * nat) :=
  match l with [] => [] | IOut x :: l' => (x, b) :: outs_of l' (S b) | _ :: l' => outs_of l' (S b) end.
Lemma join_nodes n cs : Forall (fun c => match c with (a, _, b, _) => (a < n)%nat /\ (b < n)%nat end) cs -> join (map Node (seq 0 n)) cs = cs.
Proof.
  induction 1 as [| [[[a o] b] i] cs [Ha Hb] _ IH]; [reflexivity |]. cbn [join].
  assert (N : forall k, (k < n)%nat -> nth k (map Node (seq 0 n)) Nothing = Node k).
  { intros k Hk. rewrite (nth_indep _ _ (Node 0)) by (rewrite map_length, seq_length; exact Hk). rewrite map_nth, seq_nth by exact Hk. reflexivity. }
  rewrite !N by assumption. cbn [source target]. rewrite IH. reflexivity.
Qed.
Lemma flatten_simple items conns : forallb simple items = true ->
  Forall (fun c => match c with (a, _, b, _) => (a < List.length items)%nat /\ (b < List.length items)%nat end) conns ->
  flatten (mkPatch items conns) 0 = mkFlat (map prim_of items) conns (by_x (ins_of items 0)) (by_x (outs_of items 0)) [].
Proof.
  intros Hs Hc. cbn [flatten].
  match goal with |- match ?g items O with _ => _ end = _ => set (go := g) end.
  assert (G : forall l b, forallb simple l = true -> go l b = (map Node (seq b (List.length l)), map prim_of l, [], ins_of l b, outs_of l b, [])).
  { induction l as [| it l IH]; intros b H; [reflexivity |]. cbn [forallb] in H. apply andb_prop in H. destruct H as [H1 H2].
    destruct it; try discriminate H1; cbn [go]; fold go; rewrite (IH (S b) H2); reflexivity. }
  rewrite (G items 0%nat Hs). cbn [app]. rewrite join_nodes by exact Hc. reflexivity.
Qed.

(** ** Running *)
Lemma set_same l : forall n p, nth_error l n = Some p -> set_node l n p = l.
Proof. induction l as [| x l IH]; intros [| n] p H; try discriminate H; cbn in *; [congruence | f_equal; apply IH, H]. Qed.
Definition noted (fp : flat) (now : Z) (n : nat) (m : msg) : list out := match index_of n (f_outs fp) O with Some k => [(now, k, m)] | None => [] end.
Lemma step_react E fp now w n i m p p' es : nth_error (nodes w) n = Some p -> (forall d, p <> PDelay d) -> react E now p i m = Ok (p', es) ->
  step E fp now w (n, i, m) = Ok (mkWorld (set_node (nodes w) n p') (queue w) (log (sent w) (noted fp now n m)),
                                  flat_map (fun e => tasks_of (f_conns fp) n (fst e) (snd e)) es).
Proof.
  intros Hn Hd Hr. unfold step. rewrite Hn. destruct p; try (rewrite Hr; cbn [obind]; unfold noted; destruct (index_of n (f_outs fp) 0); rewrite ?log_nil; reflexivity).
  exfalso. apply (Hd samples). reflexivity.
Qed.
Lemma step_keep E fp now w n i m p es : nth_error (nodes w) n = Some p -> (forall d, p <> PDelay d) -> react E now p i m = Ok (p, es) ->
  step E fp now w (n, i, m) = Ok (mkWorld (nodes w) (queue w) (log (sent w) (noted fp now n m)),
                                  flat_map (fun e => tasks_of (f_conns fp) n (fst e) (snd e)) es).
Proof. intros Hn Hd Hr. rewrite (step_react E fp now w n i m p p es Hn Hd Hr). rewrite set_same by exact Hn. reflexivity. Qed.
Lemma step_pass E fp now w n i m : nth_error (nodes w) n = Some PPass ->
  step E fp now w (n, i, m) = Ok (mkWorld (nodes w) (queue w) (log (sent w) (noted fp now n m)), tasks_of (f_conns fp) n 0 m).
Proof. intros Hn. rewrite (step_keep E fp now w n i m PPass [(O, m)] Hn); [cbn [flat_map fst snd]; rewrite app_nil_r; reflexivity | discriminate | reflexivity]. Qed.

(** ** Outlets *)
Lemma index_from x l : forall k b, NoDup l -> nth_error l k = Some x -> index_of x l b = Some (b + k)%nat.
Proof.
  induction l as [| y l IH]; intros [| k] b Hd H; try discriminate H; inversion Hd; subst.
  - cbn in H |- *. injection H as ->. rewrite Nat.eqb_refl. f_equal. lia.
  - cbn [nth_error] in H. cbn [index_of]. replace (Nat.eqb x y) with false.
    + rewrite (IH k (S b)) by assumption. f_equal. lia.
    + symmetry. apply Nat.eqb_neq. intros ->. apply nth_error_In in H. contradiction.
Qed.
Lemma index_none x l : forall b, ~ In x l -> index_of x l b = None.
Proof.
  induction l as [| y l IH]; intros b H; [reflexivity |]. cbn [index_of]. replace (Nat.eqb x y) with false by (symmetry; apply Nat.eqb_neq; intros ->; apply H; left; reflexivity).
  apply IH. intros G. apply H. right. exact G.
Qed.
Lemma tasks_app cs1 cs2 n o m : tasks_of (cs1 ++ cs2) n o m = tasks_of cs1 n o m ++ tasks_of cs2 n o m.
Proof. unfold tasks_of. rewrite filter_app, map_app. reflexivity. Qed.
Lemma tasks_cons a o b i cs n o' m : tasks_of ((a, o, b, i) :: cs) n o' m = (if (Nat.eqb a n && Nat.eqb o o')%bool then [(b, i, m)] else []) ++ tasks_of cs n o' m.
Proof. unfold tasks_of. cbn [filter]. destruct (Nat.eqb a n && Nat.eqb o o')%bool; reflexivity. Qed.
Lemma tasks_none cs n o m : Forall (fun c => match c with (a, o', _, _) => ~ (a = n /\ o' = o) end) cs -> tasks_of cs n o m = [].
Proof.
  induction 1 as [| [[[a o'] b] i] cs H _ IH]; [reflexivity |]. rewrite tasks_cons, IH.
  destruct (Nat.eqb_spec a n), (Nat.eqb_spec o' o); try reflexivity. exfalso. apply H. split; assumption.
Qed.
(** ** Numbering *)
Lemma insert_mid e l1 l2 : Forall (fun x => fst x <= fst e) l1 -> match l2 with [] => True | x :: _ => fst e < fst x end ->
  insert_let e (l1 ++ l2) = l1 ++ e :: l2.
Proof.
  intros H1 H2. induction H1 as [| x l1 H _ IH].
  - destruct l2 as [| x l2]; [reflexivity |]. cbn. destruct (Z.ltb_spec (fst e) (fst x)); [reflexivity | lia].
  - cbn [app insert_let]. destruct (Z.ltb_spec (fst e) (fst x)); [lia | rewrite IH; reflexivity].
Qed.
(** Positions from left to right, before a last one. *)
Lemma insert_up l2 n : forall i (f : nat -> nat) l1, Forall (fun x => fst x < Z.of_nat i) l1 -> match l2 with [] => True | x :: _ => Z.of_nat (i + n) <= fst x end ->
  fold_left (fun acc e => insert_let e acc) (map (fun k => (Z.of_nat k, f k)) (seq i n)) (l1 ++ l2) = l1 ++ map (fun k => (Z.of_nat k, f k)) (seq i n) ++ l2.
Proof.
  induction n as [| n IH]; intros i f l1 H1 H2; [reflexivity |]. cbn [seq map fold_left].
  rewrite insert_mid; [| eapply Forall_impl; [| exact H1]; cbn; intros; lia | destruct l2; [exact Logic.I | cbn [fst]; lia]].
  replace (l1 ++ (Z.of_nat i, f i) :: l2) with ((l1 ++ [(Z.of_nat i, f i)]) ++ l2) by (rewrite <- app_assoc; reflexivity).
  rewrite IH.
  - rewrite <- !app_assoc. reflexivity.
  - apply Forall_app. split; [eapply Forall_impl; [| exact H1]; cbn; intros; lia | constructor; [cbn; lia | constructor]].
  - destruct l2; [exact Logic.I |]. replace (S i + n)%nat with (i + S n)%nat by lia. exact H2.
Qed.
Lemma by_x_up (f : nat -> nat) n : by_x (map (fun k => (Z.of_nat k, f k)) (seq 0 n)) = map f (seq 0 n).
Proof.
  pose proof (insert_up [] n 0 f [] ltac:(constructor) Logic.I) as H. cbn [app] in H. rewrite app_nil_r in H. unfold by_x. rewrite H, map_map. reflexivity.
Qed.
(** ** Objects without state *)
Lemma stateless E p fp (one : Z * msg -> list out) (ok : msg -> Prop) : flatten p 0 = fp -> f_loads fp = [] ->
  (forall t m s, ok m -> runs E fp t (mkWorld (f_nodes fp) [] s) (inlet_task fp 0 m) (mkWorld (f_nodes fp) [] (log s (one (t, m))))) ->
  forall l, Forall (fun e => ok (snd e)) l -> sends E p (map msg_event l) (flat_map one l).
Proof.
  intros Hf Hl Hr l Hok. assert (G : forall s, plays E fp (mkWorld (f_nodes fp) [] s) (map msg_event l) (mkWorld (f_nodes fp) [] (log s (flat_map one l)))).
  { induction Hok as [| [t m] l Hm _ IH]; intros s; cbn [map flat_map]; [rewrite log_nil; apply plays_nil |].
    eapply plays_in; [apply Hr, Hm |]. unfold log in *. rewrite app_assoc. apply IH. }
  eapply sends_of; rewrite ?Hf; [unfold load_tasks; rewrite Hl; reflexivity | apply G | reflexivity].
Qed.
Lemma inlet_one fp n m : f_ins fp = n :: tl (f_ins fp) -> inlet_task fp 0 m = [(n, O, m)].
Proof. intros H. unfold inlet_task. rewrite H. reflexivity. Qed.

(** ** trigger *)
Definition trigger_flat (cs : list cast) : flat :=
  let n := List.length cs in
  mkFlat (PPass :: PSeq cs :: repeat PPass n) ((0, 0, 1, 0)%nat :: map (fun i => (1, i, 2 + i, 0)%nat) (seq 0 n)) [O] (map (fun i => 2 + i)%nat (seq 0 n)) [].
Lemma outlets_length n : forall i, List.length (outlets n i) = n.
Proof. induction n as [| n IH]; intros i; cbn; [reflexivity | rewrite IH; reflexivity]. Qed.
Lemma outlets_simple n : forall i, forallb simple (outlets n i) = true.
Proof. induction n as [| n IH]; intros i; cbn; auto. Qed.
Lemma outlets_prims n : forall i, map prim_of (outlets n i) = repeat PPass n.
Proof. induction n as [| n IH]; intros i; cbn; [reflexivity | rewrite IH; reflexivity]. Qed.
Lemma outlets_ins n : forall i b, ins_of (outlets n i) b = [].
Proof. induction n as [| n IH]; intros i b; cbn; auto. Qed.
Lemma outlets_outs n : forall i b, outs_of (outlets n i) b = map (fun k => (Z.of_nat k, (b + (k - i))%nat)) (seq i n).
Proof.
  induction n as [| n IH]; intros i b; cbn [outlets outs_of seq map]; [reflexivity |]. rewrite IH. replace (b + (i - i))%nat with b by lia. f_equal.
  apply map_ext_in. intros k Hk. apply in_seq in Hk. f_equal. lia.
Qed.
Lemma trigger_flatten cs : flatten (trigger_pd cs) 0 = trigger_flat cs.
Proof.
  unfold trigger_pd. rewrite flatten_simple.
  - cbn [map prim_of ins_of outs_of]. rewrite outlets_prims, outlets_ins, outlets_outs. unfold trigger_flat. f_equal.
    transitivity (by_x (map (fun k => (Z.of_nat k, (2 + k)%nat)) (seq 0 (List.length cs)))); [| apply by_x_up].
    f_equal. apply map_ext. intros k. f_equal. lia.
  - cbn [forallb simple]. apply outlets_simple.
  - cbn [List.length]. rewrite outlets_length. constructor; [lia |]. apply Forall_forall. intros c Hc. apply in_map_iff in Hc. destruct Hc as (i & <- & Hi). apply in_seq in Hi. lia.
Qed.
(** The connections of the outlets of one object. *)
Lemma tasks_row a (f : nat -> nat) k m : forall n i, tasks_of (map (fun j => (a, j, f j, O)) (seq i n)) a k m = (if (i <=? k)%nat && (k <? i + n)%nat then [(f k, O, m)] else [])%bool.
Proof.
  induction n as [| n IH]; intros i; cbn [seq map].
  - replace ((i <=? k)%nat && (k <? i + 0)%nat)%bool with false; [reflexivity |]. symmetry. destruct (Nat.leb_spec i k); [apply Nat.ltb_ge; lia | reflexivity].
  - rewrite tasks_cons, IH, Nat.eqb_refl. cbn [andb]. destruct (Nat.eqb_spec i k) as [-> | N].
    + replace ((S k <=? k)%nat) with false by (symmetry; apply Nat.leb_gt; lia). replace ((k <=? k)%nat) with true by (symmetry; apply Nat.leb_le; lia).
      replace ((k <? k + S n)%nat) with true by (symmetry; apply Nat.ltb_lt; lia). reflexivity.
    + destruct (Nat.leb_spec i k); destruct (Nat.leb_spec (S i) k); try lia; cbn [andb app]; try reflexivity. replace (i + S n)%nat with (S i + n)%nat by lia. reflexivity.
Qed.
Lemma tasks_row_other a (f : nat -> nat) o m b l : a <> b -> tasks_of (map (fun j => (a, j, f j, O)) l) b o m = [].
Proof. intros H. apply tasks_none. apply Forall_forall. intros c Hc. apply in_map_iff in Hc. destruct Hc as (i & <- & Hi). intros [G _]. contradiction. Qed.
Lemma NoDup_up (f : nat -> nat) n : (forall i j, f i = f j -> i = j) -> NoDup (map f (seq 0 n)).
Proof. intros H. induction n as [| n IH]; [constructor |]. rewrite seq_S, map_app. apply NoDup_rev in IH. rewrite <- (rev_involutive (_ ++ _)). apply NoDup_rev.
  rewrite rev_app_distr. cbn. constructor; [| exact IH]. rewrite <- in_rev. intros G. apply in_map_iff in G. destruct G as (k & Hk & Hi). apply H in Hk. apply in_seq in Hi. lia. Qed.
Lemma flat_map_ext_in {A B} (f h : A -> list B) l : (forall x, In x l -> f x = h x) -> flat_map f l = flat_map h l.
Proof. induction l as [| x l IH]; intros H; cbn; [reflexivity |]. rewrite H, IH; [reflexivity | intros; apply H; right; assumption | left; reflexivity]. Qed.
Lemma seq_emits_spec cs m : forall i, seq_emits cs i m = flat_map (fun k => map (fun m' => (k, m')) (cast_of (nth (k - i) cs CA) m)) (rev (seq i (List.length cs))).
Proof.
  induction cs as [| c cs IH]; intros i; [reflexivity |]. cbn [seq_emits List.length seq rev]. rewrite IH, flat_map_app. f_equal.
  - apply flat_map_ext_in. intros k Hk. apply in_rev in Hk. apply in_seq in Hk. replace (k - i)%nat with (S (k - S i)) by lia. reflexivity.
  - cbn [flat_map]. rewrite Nat.sub_diag. cbn [nth]. destruct c; cbn [cast_msg cast_of map app]; try reflexivity. destruct m as [| [| x |] m]; reflexivity.
Qed.

(** A row of tasks, each for an outlet. *)
Lemma run_outs E fp t (f : nat -> nat) N es : forall s,
  (forall k m, In (k, m) es -> nth_error N (f k) = Some PPass /\ index_of (f k) (f_outs fp) 0 = Some k /\ forall m, tasks_of (f_conns fp) (f k) 0 m = []) ->
  runs E fp t (mkWorld N [] s) (map (fun e => (f (fst e), O, snd e)) es) (mkWorld N [] (log s (map (fun e => (t, fst e, snd e)) es))).
Proof.
  induction es as [| [k m] es IH]; intros s H; cbn [map fst snd]; [rewrite log_nil; apply runs_nil |].
  destruct (H k m (or_introl eq_refl)) as (H1 & H2 & H3).
  eapply runs_step; [apply step_pass; exact H1 |]. rewrite H3. cbn [app nodes queue sent]. unfold noted. rewrite H2.
  pose proof (IH (log s [(t, k, m)])) as G. unfold log in *. rewrite <- app_assoc in G. apply G. intros k' m' Hi. apply (H k' m'). right. exact Hi.
Qed.
Lemma trigger_runs E cs t m s : runs E (trigger_flat cs) t (mkWorld (f_nodes (trigger_flat cs)) [] s) (inlet_task (trigger_flat cs) 0 m)
  (mkWorld (f_nodes (trigger_flat cs)) [] (log s (trigger_one cs (t, m)))).
Proof.
  set (fp := trigger_flat cs). set (n := List.length cs).
  assert (O0 : index_of 0 (f_outs fp) 0 = None) by (apply index_none; cbn; intros H; apply in_map_iff in H; destruct H as (k & Hk & _); discriminate Hk).
  assert (O1 : index_of 1 (f_outs fp) 0 = None) by (apply index_none; cbn; intros H; apply in_map_iff in H; destruct H as (k & Hk & _); discriminate Hk).
  rewrite (inlet_one fp 0) by reflexivity. eapply runs_step; [apply step_pass; reflexivity |]. unfold noted. rewrite O0, log_nil.
  cbn [f_conns fp trigger_flat nodes queue sent]. rewrite tasks_cons. cbn [Nat.eqb andb app]. rewrite tasks_row_other by discriminate. cbn [app].
  eapply runs_step.
  { apply (step_keep E fp t _ 1%nat 0%nat m (PSeq cs) (seq_emits cs 0 m)); [reflexivity | discriminate | reflexivity]. }
  unfold noted. rewrite O1, log_nil, app_nil_r. cbn [nodes queue sent].
  assert (Q : flat_map (fun e => tasks_of (f_conns fp) 1 (fst e) (snd e)) (seq_emits cs 0 m) = map (fun e => ((2 + fst e)%nat, O, snd e)) (seq_emits cs 0 m)).
  { assert (B : forall k x, In (k, x) (seq_emits cs 0 m) -> (k < n)%nat).
    { rewrite seq_emits_spec. intros k x Hk. apply in_flat_map in Hk. destruct Hk as (j & Hj & Hk). apply in_map_iff in Hk. destruct Hk as (x' & [= -> ->] & _).
      apply in_rev, in_seq in Hj. unfold n. lia. }
    induction (seq_emits cs 0 m) as [| [k x] es IH]; [reflexivity |]. cbn [flat_map map fst snd]. rewrite IH by (intros k' x' Hi; apply (B k' x'); right; exact Hi).
    cbn [f_conns fp trigger_flat]. rewrite tasks_cons. cbn [Nat.eqb andb app]. rewrite (tasks_row 1 (fun i => 2 + i)%nat). fold n.
    pose proof (B k x (or_introl eq_refl)). replace ((0 <=? k)%nat && (k <? 0 + n)%nat)%bool with true; [reflexivity |].
    symmetry. apply andb_true_intro. split; [apply Nat.leb_le; lia | apply Nat.ltb_lt; lia]. }
  rewrite Q.
  replace (trigger_one cs (t, m)) with (map (fun e => (t, fst e, snd e)) (seq_emits cs 0 m)).
  - apply (run_outs E fp t (fun k => 2 + k)%nat). intros k x Hk.
    assert (Hn : (k < n)%nat).
    { rewrite seq_emits_spec in Hk. apply in_flat_map in Hk. destruct Hk as (j & Hj & Hk). apply in_map_iff in Hk. destruct Hk as (x' & [= -> ->] & _).
      apply in_rev, in_seq in Hj. unfold n. lia. }
    split; [| split].
    + cbn. rewrite nth_error_repeat by exact Hn. reflexivity.
    + apply (index_from (2 + k) (f_outs fp) k 0).
      * cbn [f_outs fp trigger_flat]. apply NoDup_up. intros; lia.
      * cbn [f_outs fp trigger_flat]. rewrite nth_error_map. fold n. rewrite (nth_error_nth' (seq 0 n) 0%nat) by (rewrite seq_length; exact Hn). rewrite seq_nth by exact Hn. reflexivity.
    + intros x'. cbn [f_conns fp trigger_flat]. rewrite tasks_cons. cbn [Nat.eqb Nat.add andb app]. apply tasks_row_other. discriminate.
  - rewrite seq_emits_spec. unfold trigger_one. cbn [fst snd]. rewrite !flat_map_concat_map, concat_map, map_map. f_equal. apply map_ext. intros k. rewrite map_map, Nat.sub_0_r. reflexivity.
Qed.
Lemma trigger_sends E cs l : sends E (trigger_pd cs) (map msg_event l) (trigger_spec cs l).
Proof.
  apply (stateless E (trigger_pd cs) (trigger_flat cs) (trigger_one cs) (fun _ => True)); [apply trigger_flatten | reflexivity | intros; apply trigger_runs |].
  apply Forall_forall. intros. exact Logic.I.
Qed.
