(** route, select, pack of any size. *)
From Verif Require Import PatchProofs PatchProofs2 FanSpec FanProofs FanProofs2 HashProofs.
From Coq Require Import Lia.
Open Scope Z_scope.

(** ** A switch and a part for each case *)
Definition case_row (outs : list nat) (j : nat) : list flat_conn := (2, j, 4 + 2 * j, 0)%nat :: map (fun o => (4 + 2 * j, o, 5 + 2 * j, 0)%nat) outs.
Lemma case_parts_flat part n : forall i, case_parts n part i = flat_map (fun j => [IObj part; IOut (Z.of_nat j)]) (seq i n).
Proof. induction n as [| n IH]; intros i; [reflexivity |]. cbn [case_parts seq flat_map app]. rewrite IH. reflexivity. Qed.
Lemma case_conns_flat outs n : forall i, case_conns n outs i = flat_map (case_row outs) (seq i n).
Proof. induction n as [| n IH]; intros i; [reflexivity |]. cbn [case_conns seq flat_map]. rewrite IH. reflexivity. Qed.
Lemma case_ins part n : forall i b, ins_of (case_parts n part i) b = [].
Proof. induction n as [| n IH]; intros i b; [reflexivity |]. cbn [case_parts ins_of]. apply IH. Qed.
Lemma case_outs part n : forall i b, outs_of (case_parts n part i) b = map (fun k => (Z.of_nat k, (b + 1 + 2 * (k - i))%nat)) (seq i n).
Proof.
  induction n as [| n IH]; intros i b; [reflexivity |]. cbn [case_parts outs_of seq map]. rewrite IH. replace (b + 1 + 2 * (i - i))%nat with (S b) by lia. f_equal.
  apply map_ext_in. intros k Hk. apply in_seq in Hk. f_equal. lia.
Qed.
Definition cases_flat (cs : list label) (part : prim) (outs : list nat) : flat :=
  let n := List.length cs in
  mkFlat (PPass :: PPass :: PSwitch cs :: PPass :: flat_map (fun _ => [part; PPass]) (seq 0 n))
         ((0, 0, 2, 0)%nat :: (2, n, 3, 0)%nat :: flat_map (case_row outs) (seq 0 n)) [0; 1]%nat (map (fun k => 5 + 2 * k)%nat (seq 0 n) ++ [3%nat]) [].
Lemma cases_flatten cs part outs : flatten (cases_pd cs part outs) 0 = cases_flat cs part outs.
Proof.
  unfold cases_pd. cbv zeta. set (n := List.length cs). rewrite flatten_simple.
  - cbn [app map prim_of ins_of outs_of]. rewrite case_ins, case_outs, case_conns_flat, case_parts_flat, map_flat. unfold cases_flat. fold n. f_equal.
    unfold by_x. cbn [fold_left insert_let].
    pose proof (insert_up [(Z.of_nat n, 3%nat)] n 0 (fun k => 5 + 2 * k)%nat [] ltac:(constructor) ltac:(cbn; lia)) as G. cbn [app] in G.
    rewrite (map_ext (fun k => (Z.of_nat k, (4 + 1 + 2 * (k - 0))%nat)) (fun k => (Z.of_nat k, (5 + 2 * k)%nat))) by (intros k; f_equal; lia).
    rewrite G, map_app, map_map. reflexivity.
  - cbn [app forallb simple]. rewrite case_parts_flat. apply simple_flat. reflexivity.
  - cbn [app List.length]. rewrite case_parts_flat, pairs_length, seq_length, case_conns_flat. fold n. apply Forall_cons; [lia |]. apply Forall_cons; [lia |].
    apply Forall_flat_map. apply Forall_forall. intros j Hj. apply in_seq in Hj. apply Forall_cons; [lia |]. apply Forall_forall. intros c Hc. apply in_map_iff in Hc. destruct Hc as (o & <- & _). lia.
Qed.
Section Cases.
Variables (cs : list label) (part : prim) (outs : list nat).
Let n := List.length cs.
Let fp := cases_flat cs part outs.
Hypothesis outs_once : NoDup outs.
Lemma row_part j k o m : tasks_of (map (fun o => (4 + 2 * j, o, 5 + 2 * j, 0)%nat) outs) (4 + 2 * k) o m = (if Nat.eqb j k && existsb (Nat.eqb o) outs then [((5 + 2 * j)%nat, O, m)] else [])%bool.
Proof.
  induction outs as [| x l IH]; [cbn; rewrite Bool.andb_false_r; reflexivity |]. inversion outs_once; subst. cbn [map existsb]. rewrite tasks_cons, IH by assumption.
  replace (Nat.eqb (4 + 2 * j) (4 + 2 * k)) with (Nat.eqb j k) by (destruct (Nat.eqb_spec j k), (Nat.eqb_spec (4 + 2 * j) (4 + 2 * k)); try reflexivity; lia).
  rewrite (Nat.eqb_sym x o). destruct (Nat.eqb j k); cbn [andb]; [| reflexivity]. destruct (Nat.eqb_spec o x) as [-> | N]; cbn [orb]; [| reflexivity].
  replace (existsb (Nat.eqb x) l) with false; [reflexivity |]. symmetry. apply Bool.not_true_is_false. intros G. apply existsb_exists in G. destruct G as (y & Hy & Hxy).
  apply Nat.eqb_eq in Hxy. subst. contradiction.
Qed.
Lemma cases_tasks_in m : tasks_of (f_conns fp) 0 0 m = [(2%nat, O, m)].
Proof.
  cbn [f_conns fp cases_flat]. rewrite !tasks_cons. cbn [Nat.eqb andb app]. rewrite tasks_flat, flat_none; [reflexivity |]. intros x _. apply tasks_none. apply Forall_cons; [lia |].
  apply Forall_forall. intros c Hc. apply in_map_iff in Hc. destruct Hc as (o & <- & _). lia.
Qed.
Lemma cases_tasks_switch k m : (k <= n)%nat -> tasks_of (f_conns fp) 2 k m = (if Nat.eqb k n then [(3%nat, O, m)] else [((4 + 2 * k)%nat, O, m)]).
Proof.
  intros Hk. cbn [f_conns fp cases_flat]. fold n. rewrite !tasks_cons, tasks_flat. cbn [Nat.eqb andb app].
  rewrite (flat_map_ext_in _ (fun j => if Nat.eqb j k then [((4 + 2 * j)%nat, O, m)] else [])).
  - rewrite pick. cbn [Nat.leb Nat.add andb]. rewrite (Nat.eqb_sym n k). destruct (Nat.eqb_spec k n) as [-> | N].
    + rewrite (proj2 (Nat.ltb_ge n n)) by lia. reflexivity.
    + rewrite (proj2 (Nat.ltb_lt k n)) by lia. reflexivity.
  - intros j _. unfold case_row. rewrite tasks_cons. cbn [Nat.eqb andb]. rewrite tasks_none; [rewrite app_nil_r; reflexivity |].
    apply Forall_forall. intros c Hc. apply in_map_iff in Hc. destruct Hc as (o & <- & _). lia.
Qed.
Lemma cases_tasks_part k o m : (k < n)%nat -> tasks_of (f_conns fp) (4 + 2 * k) o m = (if existsb (Nat.eqb o) outs then [((5 + 2 * k)%nat, O, m)] else []).
Proof.
  intros Hk. cbn [f_conns fp cases_flat]. fold n. rewrite !tasks_cons, tasks_flat. replace (Nat.eqb 0 (4 + 2 * k)) with false by reflexivity. replace (Nat.eqb 2 (4 + 2 * k)) with false by reflexivity. cbn [andb app].
  rewrite (flat_map_ext_in _ (fun j => if Nat.eqb j k then (if existsb (Nat.eqb o) outs then [((5 + 2 * j)%nat, O, m)] else []) else [])).
  - apply (pick_in (fun j => if existsb (Nat.eqb o) outs then [((5 + 2 * j)%nat, O, m)] else []) k n Hk).
  - intros j _. unfold case_row. rewrite tasks_cons. replace (Nat.eqb 2 (4 + 2 * k)) with false by reflexivity. cbn [andb app]. rewrite row_part. destruct (Nat.eqb j k); reflexivity.
Qed.
Lemma cases_tasks_out k m : tasks_of (f_conns fp) (5 + 2 * k) 0 m = [].
Proof.
  cbn [f_conns fp cases_flat]. fold n. apply tasks_none. apply Forall_cons; [lia |]. apply Forall_cons; [lia |]. apply Forall_flat_map. apply Forall_forall. intros j _.
  apply Forall_cons; [lia |]. apply Forall_forall. intros c Hc. apply in_map_iff in Hc. destruct Hc as (o & <- & _). lia.
Qed.
Lemma cases_tasks_last m : tasks_of (f_conns fp) 3 0 m = [].
Proof.
  cbn [f_conns fp cases_flat]. fold n. apply tasks_none. apply Forall_cons; [lia |]. apply Forall_cons; [lia |]. apply Forall_flat_map. apply Forall_forall. intros j _.
  apply Forall_cons; [lia |]. apply Forall_forall. intros c Hc. apply in_map_iff in Hc. destruct Hc as (o & <- & _). lia.
Qed.
Lemma cases_nodup : NoDup (f_outs fp).
Proof.
  cbn [f_outs fp cases_flat]. fold n. rewrite <- (rev_involutive (_ ++ _)). apply NoDup_rev. rewrite rev_app_distr. cbn [rev app]. constructor.
  - rewrite <- in_rev. intros H. apply in_map_iff in H. destruct H as (k & Hk & _). lia.
  - apply NoDup_rev, NoDup_up. intros; lia.
Qed.
Lemma cases_index k : (k < n)%nat -> index_of (5 + 2 * k) (f_outs fp) 0 = Some k.
Proof.
  intros H. apply (index_from _ _ k 0); [apply cases_nodup |]. cbn [f_outs fp cases_flat]. fold n. rewrite nth_error_app1 by (rewrite map_length, seq_length; exact H).
  rewrite nth_error_map, nth_seq by exact H. reflexivity.
Qed.
Lemma cases_index_last : index_of 3 (f_outs fp) 0 = Some n.
Proof.
  apply (index_from _ _ n 0); [apply cases_nodup |]. cbn [f_outs fp cases_flat]. fold n. rewrite nth_error_app2 by (rewrite map_length, seq_length; lia).
  rewrite map_length, seq_length, Nat.sub_diag. reflexivity.
Qed.
Lemma cases_index_none x : x = 0%nat \/ x = 2%nat \/ (exists k, x = 4 + 2 * k)%nat -> index_of x (f_outs fp) 0 = None.
Proof.
  intros H. apply index_none. cbn [f_outs fp cases_flat]. intros G. apply in_app_or in G. destruct G as [G | [G | []]].
  - apply in_map_iff in G. destruct G as (k & Hk & _). destruct H as [H | [H | [j H]]]; lia.
  - destruct H as [H | [H | [j H]]]; lia.
Qed.
Lemma cases_node_part k : (k < n)%nat -> nth_error (f_nodes fp) (4 + 2 * k) = Some part.
Proof. intros H. refine (eq_trans (pairs_even (fun _ => part) (fun _ => PPass) _ k) _). rewrite nth_seq by exact H. reflexivity. Qed.
Lemma cases_node_out k : (k < n)%nat -> nth_error (f_nodes fp) (5 + 2 * k) = Some PPass.
Proof. intros H. refine (eq_trans (pairs_odd (fun _ => part) (fun _ => PPass) _ k) _). rewrite nth_seq by exact H. reflexivity. Qed.
Lemma cases_runs E t m s k o m' : switch_outlet E cs m = Ok k -> (k <= n)%nat -> (forall d, part <> PDelay d) ->
  react E t part 0 m = Ok (part, [(o, m')]) -> existsb (Nat.eqb o) outs = true ->
  runs E fp t (mkWorld (f_nodes fp) [] s) (inlet_task fp 0 m) (mkWorld (f_nodes fp) [] (log s [if Nat.eqb k n then (t, n, m) else (t, k, m')])).
Proof.
  intros Hs Hk Hd Hr Ho. rewrite (inlet_one fp 0) by reflexivity. eapply runs_step; [apply step_pass; reflexivity |].
  unfold noted. rewrite cases_index_none, log_nil, cases_tasks_in by auto. cbn [app nodes queue sent].
  eapply runs_step.
  { apply (step_keep E fp t (mkWorld (f_nodes fp) [] s) 2%nat 0%nat m (PSwitch cs) [(k, m)]); [reflexivity | discriminate |]. cbn [react]. rewrite Hs. reflexivity. }
  unfold noted. rewrite cases_index_none, log_nil by auto. cbn [flat_map fst snd nodes queue sent]. rewrite !app_nil_r, cases_tasks_switch by exact Hk.
  destruct (Nat.eqb_spec k n) as [-> | N].
  - eapply runs_step; [apply (step_pass E fp t (mkWorld (f_nodes fp) [] s) 3%nat); reflexivity |]. unfold noted. rewrite cases_index_last, cases_tasks_last. apply runs_nil.
  - assert (Hk' : (k < n)%nat) by lia.
    eapply runs_step; [apply (step_keep E fp t (mkWorld (f_nodes fp) [] s) (4 + 2 * k)%nat 0%nat m part [(o, m')] (cases_node_part k Hk') Hd Hr) |].
    unfold noted. rewrite cases_index_none, log_nil by eauto. cbn [flat_map fst snd nodes queue sent]. rewrite cases_tasks_part, Ho, !app_nil_r by exact Hk'.
    eapply runs_step; [apply (step_pass E fp t (mkWorld (f_nodes fp) [] s) (5 + 2 * k)%nat _ _ (cases_node_out k Hk')) |]. unfold noted. rewrite cases_index, cases_tasks_out by exact Hk'. apply runs_nil.
Qed.
End Cases.

(** ** The outlet *)
Lemma find_first E cs e : (forall c, In c cs -> (elem_hash E e =? label_hash E c) = matches c e) ->
  forall i, find_label E (elem_hash E e) cs i = match first_match cs e i with Some k => k | None => (i + List.length cs)%nat end.
Proof.
  intros H. induction cs as [| c cs IH]; intros i; cbn [find_label first_match List.length]; [lia |].
  rewrite (H c (or_introl eq_refl)). destruct (matches c e); [reflexivity |]. rewrite IH by (intros; apply H; right; assumption).
  destruct (first_match cs e (S i)); [reflexivity | lia].
Qed.
Lemma text_eqb_refl s : text_eqb s s = true.
Proof. unfold text_eqb. destruct (list_eq_dec Z.eq_dec s s); [reflexivity | contradiction]. Qed.
Lemma text_eqb_true s s' : text_eqb s s' = true -> s = s'.
Proof. unfold text_eqb. destruct (list_eq_dec Z.eq_dec s s'); [auto | discriminate]. Qed.
Lemma is_bang_true s : is_bang s = true -> s = [98; 97; 110; 103].
Proof. intros E. unfold is_bang in E. repeat (match type of E with context [match ?v with _ => _ end] => destruct v; try discriminate end). reflexivity. Qed.
Lemma label_hash_code E c : plain_label c -> label_hash E c = label_code E c.
Proof.
  destruct c as [x | s]; [reflexivity |]. intros [A L]. cbn [label_hash label_code]. destruct (text_eqb s (T "bang")) eqn:B.
  - apply text_eqb_true in B. subst. reflexivity.
  - rewrite hash_agree; [reflexivity | eapply Forall_impl; [| exact A]; unfold ascii; auto | | exact L].
    destruct (is_bang s) eqn:J; [| reflexivity]. exfalso. apply is_bang_true in J. subst s. discriminate B.
Qed.
Lemma feqb_plain x y : plain_number x -> plain_number y -> feqb x y = true -> x = y.
Proof.
  intros [Nx Zx] [Ny Zy] H. unfold feqb in H.
  destruct (is_finite_strict x) eqn:Fx; [destruct (is_finite_strict y) eqn:Fy |].
  - apply B2R_inj; [exact Fx | exact Fy |].
    assert (Gx : is_finite x = true) by (destruct x; try discriminate Fx; reflexivity). assert (Gy : is_finite y = true) by (destruct y; try discriminate Fy; reflexivity).
    rewrite Beqb_correct in H by assumption. revert H. case Raux.Req_bool_spec; [auto | discriminate].
  - exfalso. destruct x as [sx | sx | | sx mx ex Hx]; try discriminate Fx. destruct y as [sy | sy | | sy my ey Hy]; try discriminate Fy; try destruct sx; try destruct sy; lazy in H; discriminate H.
  - destruct x as [sx | sx | | sx mx ex Hx]; try discriminate Fx; destruct y as [sy | sy | | sy my ey Hy]; try destruct sx; try destruct sy; lazy in H; try discriminate H; try reflexivity;
      exfalso; (apply Zx; reflexivity) || (apply Zy; reflexivity) || discriminate Nx.
Qed.
Lemma hash_matches E c e : plain_label c -> plain_elem e -> (matches c e = false -> label_code E c <> code E e) -> (elem_hash E e =? label_hash E c) = matches c e.
Proof.
  intros Hc He Hn. rewrite label_hash_code by exact Hc. change (elem_hash E e) with (code E e). destruct (matches c e) eqn:M.
  - apply Z.eqb_eq. destruct c as [y | s], e as [| x | s']; cbn [matches] in M; try discriminate M; cbn [code label_code].
    + rewrite (feqb_plain x y He Hc M). reflexivity.
    + rewrite M. reflexivity.
    + apply text_eqb_true in M. subst s'. destruct He as [_ He]. unfold text_eqb. destruct (list_eq_dec Z.eq_dec s (T "bang")); [contradiction | reflexivity].
  - apply Z.eqb_neq. intros G. apply (Hn eq_refl). symmetry. exact G.
Qed.
Lemma switch_first E cs m : Forall plain_label cs -> route_ok E cs m ->
  switch_outlet E cs m = Ok (match first_match cs (subject m) 0 with Some k => k | None => List.length cs end).
Proof.
  intros Hc (Hm & Hs & He & Hn1 & Hn2).
  assert (F : find_label E (elem_hash E (subject m)) cs 0 = match first_match cs (subject m) 0 with Some k => k | None => List.length cs end).
  { apply (find_first E cs (subject m)). intros c Hi. apply hash_matches; [| exact He |].
    - rewrite Forall_forall in Hc. apply Hc, Hi.
    - rewrite Forall_forall in Hn1. apply Hn1, Hi. }
  destruct m as [| e0 rest]; [contradiction |]. unfold switch_outlet.
  assert (D : e0 = word "symbol" \/ e0 <> word "symbol").
  { destruct e0 as [| x | s]; [right; discriminate | right; discriminate |]. destruct (list_eq_dec Z.eq_dec s (T "symbol")) as [-> | N]; [left; reflexivity | right]. intros G. apply N. unfold word in G. congruence. }
  destruct D as [-> | D].
  - change (elem_hash E (word "symbol") =? hv_string_to_hash (T "symbol")) with (hv_string_to_hash (T "symbol") =? hv_string_to_hash (T "symbol")). rewrite Z.eqb_refl.
    destruct rest as [| e1 rest]; [contradiction |]. cbn [subject word] in F |- *. rewrite text_eqb_refl in F |- *. rewrite F. reflexivity.
  - pose proof (Hn2 e0 rest eq_refl D) as G. change (code E e0) with (elem_hash E e0) in G. change (code E (word "symbol")) with (hv_string_to_hash (T "symbol")) in G.
    rewrite (proj2 (Z.eqb_neq _ _) G).
    assert (Q : subject (e0 :: rest) = e0).
    { destruct e0 as [| x | s]; try reflexivity. cbn [subject]. destruct rest; [reflexivity |]. unfold text_eqb. destruct (list_eq_dec Z.eq_dec s (T "symbol")) as [-> |]; [exfalso; apply D; reflexivity | reflexivity]. }
    rewrite Q in F |- *. rewrite F. reflexivity.
Qed.
Lemma first_below cs e : forall i k, first_match cs e i = Some k -> (i <= k < i + List.length cs)%nat.
Proof.
  induction cs as [| c cs IH]; intros i k H; [discriminate |]. cbn [first_match List.length] in *. destruct (matches c e); [injection H as <-; lia |]. apply IH in H. lia.
Qed.
Lemma nodup01 : NoDup [0%nat; 1%nat]. Proof. repeat constructor; cbn; intuition discriminate. Qed.
Lemma nodup0 : NoDup [0%nat]. Proof. repeat constructor; cbn; intuition discriminate. Qed.
Lemma flat_map_concat_map_one {A B} (f : A -> B) l : flat_map (fun e => [f e]) l = map f l.
Proof. induction l; cbn; congruence. Qed.
Lemma cases_send E cs part outs one m' : NoDup outs -> Forall plain_label cs -> (forall d, part <> PDelay d) ->
  (forall t m, m <> [] -> exists o, react E t part 0 m = Ok (part, [(o, m' m)]) /\ existsb (Nat.eqb o) outs = true) ->
  (forall t m, one (t, m) = match first_match cs (subject m) 0 with Some k => (t, k, m' m) | None => (t, List.length cs, m) end) ->
  forall l, Forall (fun e => route_ok E cs (snd e)) l -> sends E (cases_pd cs part outs) (map msg_event l) (map one l).
Proof.
  intros Ho Hc Hd Hp H1 l Hl. rewrite <- (flat_map_concat_map_one one l).
  apply (stateless E (cases_pd cs part outs) (cases_flat cs part outs) (fun e => [one e]) (route_ok E cs)); [apply cases_flatten | reflexivity | | exact Hl].
  intros t m s Hm. pose proof (switch_first E cs m Hc Hm) as Hs. destruct (Hp t m (proj1 Hm)) as (o & Hr & Hi). rewrite H1.
  destruct (first_match cs (subject m) 0) as [k |] eqn:F.
  - apply first_below in F. pose proof (cases_runs cs part outs Ho E t m s k o (m' m) Hs ltac:(lia) Hd Hr Hi) as G. rewrite (proj2 (Nat.eqb_neq k (List.length cs))) in G by lia. exact G.
  - pose proof (cases_runs cs part outs Ho E t m s (List.length cs) o (m' m) Hs ltac:(lia) Hd Hr Hi) as G. rewrite Nat.eqb_refl in G. exact G.
Qed.
Lemma route_sends E cs l : Forall plain_label cs -> Forall (fun e => route_ok E cs (snd e)) l -> sends E (route_pd cs) (map msg_event l) (map (route_one cs) l).
Proof.
  intros Hc. apply (cases_send E cs (PSlice 1 (-1)) [0; 1]%nat (route_one cs) (fun m => match tl m with [] => [EB] | r => r end) nodup01 Hc); [discriminate | | reflexivity].
  intros t m Hm. destruct m as [| e [| e' m]]; [contradiction | |].
  - exists 1%nat. split; reflexivity.
  - exists 0%nat. split; [| reflexivity]. cbn [react]. unfold zlen. cbn [List.length]. destruct (Z.ltb_spec 1 (Z.of_nat (S (S (List.length m))))); [reflexivity | lia].
Qed.
Lemma select_sends E cs l : Forall plain_label cs -> Forall (fun e => route_ok E cs (snd e)) l -> sends E (sel_pd cs) (map msg_event l) (map (select_one cs) l).
Proof.
  intros Hc. apply (cases_send E cs (PSeq [CB]) [0]%nat (select_one cs) (fun m => [EB]) nodup0 Hc); [discriminate | | reflexivity].
  intros t m Hm. exists 0%nat. split; reflexivity.
Qed.

(** ** pack *)
Lemma inlets_length n : forall i, List.length (inlets n i) = n.
Proof. induction n as [| n IH]; intros i; cbn; [reflexivity | rewrite IH; reflexivity]. Qed.
Lemma inlets_simple n : forall i, forallb simple (inlets n i) = true.
Proof. induction n as [| n IH]; intros i; cbn; auto. Qed.
Lemma inlets_prims n : forall i, map prim_of (inlets n i) = repeat PPass n.
Proof. induction n as [| n IH]; intros i; cbn; [reflexivity | rewrite IH; reflexivity]. Qed.
Lemma inlets_outs n : forall i b, outs_of (inlets n i) b = [].
Proof. induction n as [| n IH]; intros i b; cbn; auto. Qed.
Lemma inlets_ins n : forall i b, ins_of (inlets n i) b = map (fun k => (Z.of_nat k, (b + (k - i))%nat)) (seq i n).
Proof.
  induction n as [| n IH]; intros i b; cbn [inlets ins_of seq map]; [reflexivity |]. rewrite IH. replace (b + (i - i))%nat with b by lia. f_equal.
  apply map_ext_in. intros k Hk. apply in_seq in Hk. f_equal. lia.
Qed.
Definition pack_conns (n : nat) : list flat_conn := (0, 0, 1, 0)%nat :: map (fun i => (2 + i, 0, 0, i)%nat) (seq 0 n).
Definition pack_nodes (vals : list f32) : list prim := PPack (map EF vals) :: PPass :: repeat PPass (List.length vals).
Definition pack_flat (n : nat) (vals : list f32) : flat := mkFlat (pack_nodes vals) (pack_conns n) (map (fun i => 2 + i)%nat (seq 0 n)) [1%nat] [].
Lemma pack_flatten vals : flatten (pack_pd vals) 0 = pack_flat (List.length vals) vals.
Proof.
  unfold pack_pd. rewrite flatten_simple.
  - cbn [map prim_of ins_of outs_of]. rewrite inlets_prims, inlets_outs, inlets_ins. unfold pack_flat. f_equal.
    transitivity (by_x (map (fun k => (Z.of_nat k, (2 + k)%nat)) (seq 0 (List.length vals)))); [| apply by_x_up].
    f_equal. apply map_ext. intros k. f_equal. lia.
  - cbn [forallb simple]. apply inlets_simple.
  - cbn [List.length]. rewrite inlets_length. constructor; [lia |]. apply Forall_forall. intros c Hc. apply in_map_iff in Hc. destruct Hc as (i & <- & Hi). apply in_seq in Hi. lia.
Qed.
Lemma pack_tasks n i m : (i < n)%nat -> tasks_of (pack_conns n) (2 + i) 0 m = [(O, i, m)].
Proof.
  intros H. unfold pack_conns. rewrite tasks_cons. replace (Nat.eqb 0 (2 + i)) with false by reflexivity. cbn [andb app].
  rewrite <- (pick_in (fun j => [(O, j, m)]) i n H). induction (seq 0 n) as [| j l IH]; [reflexivity |]. cbn [map flat_map]. rewrite tasks_cons, IH.
  replace (Nat.eqb (2 + j) (2 + i)) with (Nat.eqb j i) by reflexivity. cbn [Nat.eqb]. rewrite Bool.andb_true_r. reflexivity.
Qed.
Lemma pack_tasks_out n m : tasks_of (pack_conns n) 0 0 m = [(1%nat, O, m)].
Proof.
  unfold pack_conns. rewrite tasks_cons. cbn [Nat.eqb andb app]. rewrite tasks_none; [reflexivity |]. apply Forall_forall. intros c Hc. apply in_map_iff in Hc. destruct Hc as (i & <- & _). lia.
Qed.
Lemma pack_tasks_end n m : tasks_of (pack_conns n) 1 0 m = [].
Proof. apply tasks_none. constructor; [lia |]. apply Forall_forall. intros c Hc. apply in_map_iff in Hc. destruct Hc as (i & <- & _). lia. Qed.
Section Pack.
Variables (E : env) (fp : flat) (n : nat).
Hypothesis Hfc : f_conns fp = pack_conns n.
Hypothesis Hfi : f_ins fp = map (fun i => 2 + i)%nat (seq 0 n).
Hypothesis Hfo : f_outs fp = [1%nat].
Lemma pack_inlet i m : (i < n)%nat -> inlet_task fp i m = [((2 + i)%nat, O, m)].
Proof. intros H. unfold inlet_task. rewrite Hfi, nth_error_map, nth_seq by exact H. reflexivity. Qed.
Lemma pack_arrive t vals s i m : List.length vals = n -> (i < n)%nat -> forall w',
  runs E fp t (mkWorld (pack_nodes vals) [] s) [(O, i, m)] w' -> runs E fp t (mkWorld (pack_nodes vals) [] s) (inlet_task fp i m) w'.
Proof.
  intros Hl Hi w' H. rewrite pack_inlet by exact Hi. eapply runs_step; [apply step_pass |].
  - cbn. rewrite nth_error_repeat by lia. reflexivity.
  - unfold noted. rewrite Hfo, Hfc, pack_tasks by exact Hi. cbn [index_of Nat.eqb Nat.add]. rewrite log_nil. exact H.
Qed.
Lemma pack_out t vals s m : runs E fp t (mkWorld (pack_nodes vals) [] s) [(1%nat, O, m)] (mkWorld (pack_nodes vals) [] (log s [(t, O, m)])).
Proof.
  eapply runs_step; [apply step_pass; reflexivity |]. unfold noted. rewrite Hfo, Hfc, pack_tasks_end. cbn. apply runs_nil.
Qed.
Lemma pack_left t vals vals' s m : (0 < n)%nat -> List.length vals = n -> List.length vals' = n -> overwrite (map EF vals) m = map EF vals' ->
  runs E fp t (mkWorld (pack_nodes vals) [] s) (inlet_task fp 0 m) (mkWorld (pack_nodes vals') [] (log s [(t, O, map EF vals')])).
Proof.
  intros Hn Hl Hl' Ho. apply pack_arrive; [exact Hl | exact Hn |].
  eapply runs_step; [apply (step_react E fp t (mkWorld (pack_nodes vals) [] s) 0%nat 0%nat m (PPack (map EF vals)) (PPack (map EF vals')) [(O, map EF vals')]); [reflexivity | discriminate |] |].
  - cbn [react]. rewrite Ho. reflexivity.
  - unfold noted. rewrite Hfo, Hfc. cbn [index_of Nat.eqb flat_map fst snd nodes queue sent]. rewrite log_nil, !app_nil_r, pack_tasks_out.
    replace (set_node (pack_nodes vals) 0 (PPack (map EF vals'))) with (pack_nodes vals') by (unfold pack_nodes; rewrite Hl, Hl'; reflexivity). apply pack_out.
Qed.
Lemma put_place l : forall i x, (i < List.length l)%nat -> put_elem (map EF l) i (EF x) = map EF (at_place l i x).
Proof.
  induction l as [| y l IH]; intros [| i] x H; cbn [List.length] in H; try lia; cbn [map put_elem]; [reflexivity |]. rewrite IH by lia. reflexivity.
Qed.
Lemma place_length l i x : (i < List.length l)%nat -> List.length (at_place l i x) = List.length l.
Proof. intros H. unfold at_place. rewrite app_length, firstn_length. cbn [List.length]. rewrite skipn_length. lia. Qed.
Lemma pack_right t vals s i x : List.length vals = n -> (S i < n)%nat ->
  runs E fp t (mkWorld (pack_nodes vals) [] s) (inlet_task fp (S i) [EF x]) (mkWorld (pack_nodes (at_place vals (S i) x)) [] s).
Proof.
  intros Hl Hi. apply pack_arrive; [exact Hl | exact Hi |].
  eapply runs_step; [apply (step_react E fp t (mkWorld (pack_nodes vals) [] s) 0%nat (S i) [EF x] (PPack (map EF vals)) (PPack (map EF (at_place vals (S i) x))) []); [reflexivity | discriminate |] |].
  - cbn [react]. rewrite put_place by lia. reflexivity.
  - unfold noted. rewrite Hfo. cbn [index_of Nat.eqb flat_map nodes queue sent]. rewrite log_nil. cbn [app].
    replace (set_node (pack_nodes vals) 0 (PPack (map EF (at_place vals (S i) x)))) with (pack_nodes (at_place vals (S i) x)) by (unfold pack_nodes; rewrite place_length by lia; reflexivity). apply runs_nil.
Qed.
End Pack.
Lemma onto_length l : forall vals, List.length (onto l vals) = List.length vals.
Proof. induction l as [| x l IH]; intros [| v vals]; cbn; auto. Qed.
Lemma overwrite_onto l : forall vals, overwrite (map EF vals) (map EF l) = map EF (onto l vals).
Proof. induction l as [| x l IH]; intros [| v vals]; cbn; try reflexivity. rewrite IH. reflexivity. Qed.
Lemma pack_sends E vals l : vals <> [] -> pack_ok (List.length vals) l -> sends E (pack_pd vals) (map pack_event l) (pack_spec vals l).
Proof.
  intros Hv Hok. set (n := List.length vals) in *. set (fp := pack_flat n vals). assert (Hn : (0 < n)%nat) by (destruct vals; [contradiction | cbn in n; lia]).
  assert (G : forall l v s, List.length v = n -> pack_ok n l -> exists w, plays E fp (mkWorld (pack_nodes v) [] s) (map pack_event l) w /\ sent w = log s (pack_spec v l)).
  { clear - Hn. induction l as [| [t i] l IH]; intros v s Hl Hok; [exists (mkWorld (pack_nodes v) [] s); split; [apply plays_nil | cbn; rewrite log_nil; reflexivity] |].
    pose proof (Forall_inv Hok) as H1. pose proof (Forall_inv_tail Hok) as H2. cbn [snd] in H1. destruct i as [xs | | i x]; cbn [map pack_event pack_spec].
    - destruct (IH (onto xs v) (log s [(t, O, map EF (onto xs v))])) as (w & P & S'); [rewrite onto_length; exact Hl | exact H2 |]. exists w. split.
      + eapply plays_in; [apply (pack_left E fp n) with (vals' := onto xs v); auto; [rewrite onto_length; exact Hl | apply overwrite_onto] | exact P].
      + rewrite S'. unfold log. rewrite <- app_assoc. reflexivity.
    - destruct (IH v (log s [(t, O, map EF v)])) as (w & P & S'); [exact Hl | exact H2 |]. exists w. split.
      + eapply plays_in; [apply (pack_left E fp n) with (vals' := v); auto; destruct v as [| y [| z v]]; reflexivity | exact P].
      + rewrite S'. unfold log. rewrite <- app_assoc. reflexivity.
    - destruct (IH (at_place v (S i) x) s) as (w & P & S'); [rewrite place_length by lia; exact Hl | exact H2 |]. exists w. split; [| exact S'].
      eapply plays_in; [apply (pack_right E fp n); auto | exact P]. }
  destruct (G l vals [] eq_refl Hok) as (w & P & S'). eapply sends_of; rewrite ?pack_flatten; [reflexivity | exact P | exact S'].
Qed.
(** ** Single messages at route *)
Lemma one_case E t cs m k : switch_outlet E cs m = Ok k -> (k <= List.length cs)%nat -> m <> [] ->
  sends E (route_pd cs) [In_ t 0 m] [if Nat.eqb k (List.length cs) then (t, List.length cs, m) else (t, k, match tl m with [] => [EB] | r => r end)].
Proof.
  intros Hs Hk Hm.
  assert (R : exists o, react E t (PSlice 1 (-1)) 0 m = Ok (PSlice 1 (-1), [(o, match tl m with [] => [EB] | r => r end)]) /\ existsb (Nat.eqb o) [0; 1]%nat = true).
  { destruct m as [| e [| e' m]]; [contradiction | exists 1%nat; split; reflexivity |].
    exists 0%nat. split; [| reflexivity]. cbn [react]. unfold zlen. cbn [List.length]. destruct (Z.ltb_spec 1 (Z.of_nat (S (S (List.length m))))); [reflexivity | lia]. }
  destruct R as (o & Hr & Ho).
  eapply sends_of; rewrite ?cases_flatten; unfold route_pd; rewrite ?cases_flatten; [reflexivity | |].
  - eapply plays_in; [apply (cases_runs cs (PSlice 1 (-1)) [0; 1]%nat nodup01 E t m [] k o _ Hs Hk ltac:(discriminate) Hr Ho) | apply plays_nil].
  - reflexivity.
Qed.
Lemma route_symbol E t cs : fails E (route_pd cs) [In_ t 0 [word "symbol"]] UB.
Proof.
  unfold fails, route_pd. cbv zeta. rewrite cases_flatten. set (fp := cases_flat cs (PSlice 1 (-1)) [0; 1]%nat).
  exists (boot fp), (boot fp), [], 0%nat, t, [word "symbol"], 2%nat.
  split; [reflexivity |]. split; [apply runs_nil |]. split; [apply plays_nil |]. split; [| exact Logic.I].
  rewrite (inlet_one fp 0) by reflexivity. cbn [exec]. rewrite (step_pass E fp t (boot fp) 0 0 [word "symbol"] eq_refl).
  pose proof (cases_tasks_in cs (PSlice 1 (-1)) [0; 1]%nat [word "symbol"]) as G. fold fp in G. rewrite G. cbn [app exec]. unfold step at 1. reflexivity.
Qed.
