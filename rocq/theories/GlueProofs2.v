(** The board glue as a whole. *)
From Verif Require Export GlueProofs.
From Coq Require Import String List Lia Bool.
Import ListNotations.
Local Open Scope list_scope.
Open Scope Z_scope.

Lemma by_name_unique cs c : NoDup (map c_name cs) -> In c cs -> by_name (c_name c) cs = Some c.
Proof.
  unfold by_name. induction cs as [|b cs IH]; cbn [map find]; [intros _ []|]. intros H. apply NoDup_cons_iff in H. destruct H as [Hb H].
  intros [-> | Hc]; [rewrite text_eqb_refl; reflexivity|]. destruct (text_eqb_spec (c_name b) (c_name c)) as [E | E]; [|exact (IH H Hc)].
  exfalso. apply Hb. rewrite E. apply in_map. exact Hc.
Qed.
Lemma NoDup_map_filter {A B} (f : A -> B) P l : NoDup (map f l) -> NoDup (map f (filter P l)).
Proof.
  induction l as [|a l IH]; cbn [map filter]; intros H; [exact H|]. apply NoDup_cons_iff in H. destruct H as [Ha H].
  destruct (P a); [|exact (IH H)]. cbn [map]. constructor; [|exact (IH H)].
  intros C. apply Ha. apply in_map_iff in C. destruct C as (x & E & Hx). apply filter_In in Hx. rewrite <- E. apply in_map. exact (proj1 Hx).
Qed.
Lemma kept cs ps p c : NoDup (map c_name cs) -> In p ps -> root_of cs (fst p) = Some c ->
  root_of (filter (wanted cs ps) cs) (fst p) = Some c /\ by_name (c_name c) (filter (wanted cs ps) cs) = Some c.
Proof.
  intros ND Hp E.
  assert (W : wanted cs ps c = true).
  { unfold wanted. apply orb_true_iff. right. apply existsb_exists. exists p. split; [exact Hp|]. rewrite E. apply text_eqb_refl. }
  split; [exact (root_app [] _ cs (fst p) c E W)|]. apply by_name_unique; [apply NoDup_map_filter; exact ND|].
  apply filter_In. split; [|exact W]. apply root_of_some in E. exact (first_in _ _ _ E).
Qed.
Section Rows.
Variables (cs : list component) (ps : list (text * text)).
Hypothesis ND : NoDup (map c_name cs).
Let cs' := filter (wanted cs ps) cs.
Lemma in_param_iff p row : In p ps -> root_of cs (fst p) <> None ->
  in_param cs' p = Fine row <-> exists c m g, owner cs (fst p) c /\ selects c (fst p) m /\ m_get m = Some g
    /\ row = mkIn (snd p) (c_name c) (c_kind c) (in_place (m_where m)) g.
Proof.
  intros Hp Hr. destruct (root_of cs (fst p)) as [c|] eqn:E; [|contradiction]. destruct (kept cs ps p c ND Hp E) as [R B]. fold cs' in R, B.
  unfold in_param. rewrite get_root_eq, R. cbn [rbind]. rewrite B. pose proof (proj1 (root_of_some _ _ _) E) as Ow. split.
  - destruct (get_component_mapping (fst p) (snd p) c) as [m|] eqn:Em; [|discriminate]. cbn [rbind]. destruct (m_get m) as [g|] eqn:Eg; [|discriminate].
    intros [= <-]. apply mapping_some in Em. exists c, m, g. repeat split; assumption.
  - intros (c2 & m & g & Ow2 & Sm & Eg & ->). apply root_of_some in Ow2. rewrite E in Ow2. injection Ow2 as <-.
    apply (mapping_some _ (snd p)) in Sm. rewrite Sm. cbn [rbind]. rewrite Eg. reflexivity.
Qed.
Lemma out_param_iff i p row : In p ps -> root_of cs (fst p) <> None ->
  out_param cs' (i, p) = Fine row <-> exists c m s, owner cs (fst p) c /\ selects c (fst p) m /\ m_set m = Some s
    /\ row = mkOut (snd p) (fst p) (c_name c) i (out_place (m_where m)) s.
Proof.
  intros Hp Hr. destruct (root_of cs (fst p)) as [c|] eqn:E; [|contradiction]. destruct (kept cs ps p c ND Hp E) as [R B]. fold cs' in R, B.
  unfold out_param. cbn [snd fst]. rewrite get_root_eq, R. cbn [rbind]. rewrite B. pose proof (proj1 (root_of_some _ _ _) E) as Ow. split.
  - destruct (get_component_mapping (fst p) (snd p) c) as [m|] eqn:Em; [|discriminate]. cbn [rbind]. destruct (m_set m) as [g|] eqn:Eg; [|discriminate].
    intros [= <-]. apply mapping_some in Em. exists c, m, g. repeat split; assumption.
  - intros (c2 & m & g & Ow2 & Sm & Eg & ->). apply root_of_some in Ow2. rewrite E in Ow2. injection Ow2 as <-.
    apply (mapping_some _ (snd p)) in Sm. rewrite Sm. cbn [rbind]. rewrite Eg. reflexivity.
Qed.
End Rows.

Lemma verify_fine inp v o cs : verify_param_exists inp v o cs = Fine tt <->
  exists c, owner cs v c /\ (if inp then ~ cv c /\ exists d, c_dir c = Some d /\ d <> T "output" else cv c \/ exists d, c_dir c = Some d /\ d <> T "input").
Proof.
  rewrite verify_eq. destruct (root_of cs v) as [c|] eqn:E.
  - pose proof (proj1 (root_of_some _ _ _) E) as Ow. split.
    + intros H. exists c. split; [exact Ow|]. destruct (is_cv c) eqn:Ec.
      * apply is_cv_iff in Ec. destruct inp; [discriminate|]. left. exact Ec.
      * apply is_cv_false in Ec. destruct (c_dir c) as [d|]; [|discriminate].
        destruct inp; cbn [andb orb negb] in H.
        -- destruct (text_eqb_spec d (T "output")) as [|N]; [discriminate|]. split; [exact Ec|]. exists d. split; [reflexivity|exact N].
        -- destruct (text_eqb_spec d (T "input")) as [|N]; [discriminate|]. right. exists d. split; [reflexivity|exact N].
    + intros (c2 & Ow2 & H). apply root_of_some in Ow2. rewrite E in Ow2. injection Ow2 as <-. destruct (is_cv c) eqn:Ec.
      * apply is_cv_iff in Ec. destruct inp; [|reflexivity]. destruct H as [H _]. contradiction.
      * apply is_cv_false in Ec. destruct inp; cbn [andb orb negb].
        -- destruct H as (_ & d & -> & N). destruct (text_eqb_spec d (T "output")) as [|]; [contradiction|reflexivity].
        -- destruct H as [C | (d & -> & N)]; [contradiction|]. destruct (text_eqb_spec d (T "input")) as [|]; [contradiction|reflexivity].
  - split; [discriminate|]. intros (c & Ow & _). apply root_of_some in Ow. congruence.
Qed.
Lemma verify_tt inp v o cs r : verify_param_exists inp v o cs = Fine r -> verify_param_exists inp v o cs = Fine tt.
Proof. destruct r. intros H. exact H. Qed.

Section Parse.
Variables (ins outs : list text) (cs : list component) (al : aliases).
Hypothesis ND : NoDup (map c_name cs).
Let f := fun k => de_alias k al cs.
Let pin := params ins al cs.
Let pout := params outs al cs.
Let cs' := filter (wanted cs (pin ++ pout)) cs.
Lemma params_in names p : In p (params names al cs) <-> last_such (fun k => f k = fst p) names (snd p).
Proof. exact (dict_in f names p). Qed.
Lemma params_some names k : In k names -> exists p, In p (params names al cs) /\ fst p = f k.
Proof.
  intros Hk. destruct (last_exists f names k Hk) as (k' & H). exists (f k, k'). split; [|reflexivity]. apply params_in. exact H.
Qed.
Lemma params_from names p : In p (params names al cs) -> In (snd p) names /\ fst p = f (snd p).
Proof. intros H. apply params_in in H. destruct H as (l1 & l2 & -> & E & _). split; [apply in_elt|symmetry; exact E]. Qed.

(** What a successful run gives. *)
Lemma parse_fine g : parse_parameters ins outs cs al = Fine g <->
  (forall p, In p pin -> verify_param_exists true (fst p) (snd p) cs = Fine tt) /\
  (forall p, In p pout -> verify_param_exists false (fst p) (snd p) cs = Fine tt) /\
  g_components g = cs' /\ Forall2 (fun p r => in_param cs' p = Fine r) pin (g_ins g) /\
  Forall2 (fun x r => out_param cs' x = Fine r) (combine (seq 0 (length pout)) pout) (g_outs g).
Proof.
  assert (V : forall inp l, (exists r, each (fun p => verify_param_exists inp (fst p) (snd p) cs) l = Fine r)
    <-> forall p, In p l -> verify_param_exists inp (fst p) (snd p) cs = Fine tt).
  { intros inp l. split.
    - intros (r & E) p Hp. apply each_fine in E. destruct (Forall2_in_l _ _ _ p E Hp) as (b & _ & Hb). exact (verify_tt _ _ _ _ _ Hb).
    - intros H. apply each_total. intros p Hp. exists tt. exact (H p Hp). }
  assert (W : (forall p, In p pin -> verify_param_exists true (fst p) (snd p) cs = Fine tt) ->
    (forall p, In p pout -> verify_param_exists false (fst p) (snd p) cs = Fine tt) -> prune (length cs) (pin ++ pout) cs = Fine cs').
  { intros A B. apply prune_eq. intros p Hp C. apply in_app_iff in Hp.
    destruct Hp as [Hp | Hp]; [apply A in Hp|apply B in Hp]; rewrite verify_eq, C in Hp; discriminate. }
  unfold parse_parameters. fold pin pout. split.
  - destruct (each _ pin) as [r1|] eqn:E1; [|discriminate]. cbn [rbind]. destruct (each (fun p => verify_param_exists false _ _ _) pout) as [r2|] eqn:E2; [|discriminate].
    cbn [rbind]. pose proof (proj1 (V true pin) (ex_intro _ r1 E1)) as A. pose proof (proj1 (V false pout) (ex_intro _ r2 E2)) as B.
    rewrite (W A B). cbn [rbind]. destruct (each (in_param cs') pin) as [ri|] eqn:E3; [|discriminate]. cbn [rbind].
    destruct (each (out_param cs') _) as [ro|] eqn:E4; [|discriminate]. cbn [rbind]. intros [= <-]. cbn [g_components g_ins g_outs].
    apply each_fine in E3. apply each_fine in E4. repeat split; assumption.
  - intros (A & B & C & D & F). destruct (proj2 (V true pin) A) as [r1 E1]. destruct (proj2 (V false pout) B) as [r2 E2].
    rewrite E1. cbn [rbind]. rewrite E2. cbn [rbind]. rewrite (W A B). cbn [rbind]. apply each_fine in D. apply each_fine in F. rewrite D. cbn [rbind]. rewrite F. cbn [rbind].
    destruct g as [a b c]. cbn [g_components g_ins g_outs] in *. subst a. reflexivity.
Qed.
Lemma in_combine_seq {A} (l : list A) n i (a : A) : In (i, a) (combine (seq n (length l)) l) -> In a l.
Proof. intros H. apply in_combine_r in H. exact H. Qed.
Lemma combine_seq_some {A} (l : list A) : forall n (a : A), In a l -> exists i, In (i, a) (combine (seq n (length l)) l).
Proof.
  induction l as [|b l IH]; intros n a; [intros []|]. cbn [length seq combine]. intros [-> | Ha]; [exists n; left; reflexivity|].
  destruct (IH (S n) a Ha) as [i Hi]. exists i. right. exact Hi.
Qed.
Lemma verified_root inp p : verify_param_exists inp (fst p) (snd p) cs = Fine tt -> root_of cs (fst p) <> None.
Proof. intros H C. rewrite verify_eq, C in H. discriminate. Qed.

Lemma parse_iff : (exists g, parse_parameters ins outs cs al = Fine g) <->
  (forall k, In k ins -> readable cs (f k)) /\ (forall k, In k outs -> writable cs (f k)).
Proof.
  split.
  - intros (g & G). apply parse_fine in G. destruct G as (A & B & _ & D & F). split.
    + intros k Hk. destruct (params_some ins k Hk) as (p & Hp & E). fold pin in Hp. pose proof (A p Hp) as V.
      destruct (Forall2_in_l _ _ _ p D Hp) as (row & _ & R). unfold cs' in R.
      apply (in_param_iff cs (pin ++ pout) ND) in R; [|apply in_app_iff; left; exact Hp|exact (verified_root true p V)].
      destruct R as (c & m & gt & Ow & Sm & Eg & _). apply verify_fine in V. destruct V as (c2 & Ow2 & Nc & d & Ed & Nd).
      assert (c2 = c) as ->. { apply root_of_some in Ow. apply root_of_some in Ow2. rewrite Ow in Ow2. injection Ow2 as <-. reflexivity. }
      rewrite <- E. exists c, m, d, gt. repeat split; assumption.
    + intros k Hk. destruct (params_some outs k Hk) as (p & Hp & E). fold pout in Hp. pose proof (B p Hp) as V.
      destruct (combine_seq_some pout O p Hp) as [i Hi]. destruct (Forall2_in_l _ _ _ (i, p) F Hi) as (row & _ & R). unfold cs' in R.
      apply (out_param_iff cs (pin ++ pout) ND) in R; [|apply in_app_iff; right; exact Hp|exact (verified_root false p V)].
      destruct R as (c & m & gt & Ow & Sm & Eg & _). apply verify_fine in V. destruct V as (c2 & Ow2 & Hd).
      assert (c2 = c) as ->. { apply root_of_some in Ow. apply root_of_some in Ow2. rewrite Ow in Ow2. injection Ow2 as <-. reflexivity. }
      rewrite <- E. exists c, m, gt. repeat split; assumption.
  - intros [Ri Ro].
    assert (A : forall p, In p pin -> verify_param_exists true (fst p) (snd p) cs = Fine tt).
    { intros p Hp. destruct (params_from ins p Hp) as [Hk E]. destruct (Ri _ Hk) as (c & m & d & gt & Ow & Nc & Ed & Nd & _). apply verify_fine.
      rewrite E. exists c. split; [exact Ow|]. split; [exact Nc|]. exists d. split; assumption. }
    assert (B : forall p, In p pout -> verify_param_exists false (fst p) (snd p) cs = Fine tt).
    { intros p Hp. destruct (params_from outs p Hp) as [Hk E]. destruct (Ro _ Hk) as (c & m & gt & Ow & Hd & _). apply verify_fine.
      rewrite E. exists c. split; assumption. }
    destruct (each_total (in_param cs') pin) as [ri Hi].
    { intros p Hp. destruct (params_from ins p Hp) as [Hk E]. destruct (Ri _ Hk) as (c & m & d & gt & Ow & Nc & Ed & Nd & Sm & Eg).
      eexists. apply (in_param_iff cs (pin ++ pout) ND); [apply in_app_iff; left; exact Hp|exact (verified_root true p (A p Hp))|].
      fold f in E. rewrite E. exists c, m, gt. repeat split; try eassumption. }
    destruct (each_total (out_param cs') (combine (seq 0 (length pout)) pout)) as [ro Ho].
    { intros [i p] Hx. apply in_combine_seq in Hx. rename Hx into Hp. destruct (params_from outs p Hp) as [Hk E]. destruct (Ro _ Hk) as (c & m & gt & Ow & Hd & Sm & Eg).
      eexists. apply (out_param_iff cs (pin ++ pout) ND); [apply in_app_iff; right; exact Hp|exact (verified_root false p (B p Hp))|].
      fold f in E. rewrite E. exists c, m, gt. repeat split; try eassumption. }
    exists (mkGlue cs' ri ro). apply parse_fine. cbn [g_components g_ins g_outs]. apply each_fine in Hi. apply each_fine in Ho. repeat split; assumption.
Qed.
Lemma rows_in g row : parse_parameters ins outs cs al = Fine g -> In row (g_ins g) ->
  last_such (fun k => f k = f (i_enum row)) ins (i_enum row) /\
  exists c m, owner cs (f (i_enum row)) c /\ ~ cv c /\ selects c (f (i_enum row)) m /\ i_name row = c_name c /\ i_kind row = c_kind c /\
    m_get m = Some (i_get row) /\ i_place row = in_place (m_where m).
Proof.
  intros G Hr. apply parse_fine in G. destruct G as (A & B & _ & D & F). destruct (Forall2_in_r _ _ _ row D Hr) as (p & Hp & R). unfold cs' in R.
  pose proof (A p Hp) as V.
  apply (in_param_iff cs (pin ++ pout) ND) in R; [|apply in_app_iff; left; exact Hp|exact (verified_root true p V)].
  destruct R as (c & m & gt & Ow & Sm & Eg & ->). cbn [i_enum i_name i_kind i_get i_place]. pose proof (proj1 (params_in ins p) Hp) as L.
  destruct (params_from ins p Hp) as [_ E]. rewrite <- E. split; [exact L|]. exists c, m.
  apply verify_fine in V. destruct V as (c2 & Ow2 & Nc & _).
  assert (c2 = c) as ->. { apply root_of_some in Ow. apply root_of_some in Ow2. rewrite Ow in Ow2. injection Ow2 as <-. reflexivity. }
  repeat split; assumption.
Qed.
Lemma rows_out g row : parse_parameters ins outs cs al = Fine g -> In row (g_outs g) ->
  last_such (fun k => f k = f (o_enum row)) outs (o_enum row) /\ o_name row = f (o_enum row) /\
  exists c m, owner cs (f (o_enum row)) c /\ selects c (f (o_enum row)) m /\ o_comp row = c_name c /\
    m_set m = Some (o_set row) /\ o_place row = out_place (m_where m).
Proof.
  intros G Hr. apply parse_fine in G. destruct G as (A & B & _ & D & F). destruct (Forall2_in_r _ _ _ row F Hr) as ([i p] & Hx & R). unfold cs' in R.
  apply in_combine_seq in Hx. rename Hx into Hp. pose proof (B p Hp) as V.
  apply (out_param_iff cs (pin ++ pout) ND) in R; [|apply in_app_iff; right; exact Hp|exact (verified_root false p V)].
  destruct R as (c & m & gt & Ow & Sm & Eg & ->). cbn [o_enum o_name o_comp o_index o_set o_place]. pose proof (proj1 (params_in outs p) Hp) as L.
  destruct (params_from outs p Hp) as [_ E]. rewrite <- E. split; [exact L|]. split; [reflexivity|]. exists c, m. repeat split; assumption.
Qed.
Lemma enums_in g : parse_parameters ins outs cs al = Fine g -> map i_enum (g_ins g) = map snd pin.
Proof.
  intros G. apply parse_fine in G. destruct G as (_ & _ & _ & D & _). symmetry. revert D. apply Forall2_map_eq. intros p r R.
  unfold in_param in R. destruct (get_root_component _ _ _); [|discriminate]. cbn [rbind] in R. destruct (by_name _ _); [|discriminate].
  destruct (get_component_mapping _ _ _) as [m|]; [|discriminate]. cbn [rbind] in R. destruct (m_get m); [|discriminate]. injection R as <-. reflexivity.
Qed.
Lemma out_shape g : parse_parameters ins outs cs al = Fine g ->
  map o_enum (g_outs g) = map snd pout /\ map o_name (g_outs g) = map fst pout /\ map o_index (g_outs g) = seq 0 (length (g_outs g)).
Proof.
  intros G. apply parse_fine in G. destruct G as (_ & _ & _ & _ & F).
  assert (K : forall x r, out_param cs' x = Fine r -> o_enum r = snd (snd x) /\ o_name r = fst (snd x) /\ o_index r = fst x).
  { intros x r R. unfold out_param in R. cbv zeta in R. destruct (get_root_component _ _ _); [|discriminate]. cbn [rbind] in R. destruct (by_name _ _); [|discriminate].
    destruct (get_component_mapping _ _ _) as [m|]; [|discriminate]. cbn [rbind] in R. destruct (m_set m); [|discriminate]. injection R as <-. repeat split. }
  assert (L : length (seq 0 (length pout)) = length pout) by apply seq_length.
  assert (C1 : forall (a : list nat) (b : list (text * text)), length a = length b -> map fst (combine a b) = a /\ map snd (combine a b) = b).
  { induction a as [|x a IH]; intros [|y b] H; cbn in H; try discriminate; [split; reflexivity|]. injection H as H. destruct (IH b H) as [E1 E2]. cbn [combine map fst snd]. rewrite E1, E2. split; reflexivity. }
  destruct (C1 _ _ L) as [Ef Es].
  assert (Ln : length (g_outs g) = length pout).
  { transitivity (length (combine (seq 0 (length pout)) pout)).
    - clear - F. symmetry. induction F; cbn [length]; [reflexivity|f_equal; assumption].
    - rewrite <- Es at 3. rewrite map_length. reflexivity. }
  repeat split.
  - rewrite <- Es at 1. rewrite map_map. symmetry. revert F. apply Forall2_map_eq. intros x r R. symmetry. apply (K x r R).
  - rewrite <- Es at 1. rewrite map_map. symmetry. revert F. apply Forall2_map_eq. intros x r R. symmetry. apply (K x r R).
  - rewrite Ln. rewrite <- Ef at 1. symmetry. revert F. apply Forall2_map_eq. intros x r R. symmetry. apply (K x r R).
Qed.
End Parse.
