(** Errors, aliases, removed components, the send hook. *)
From Verif Require Export GlueProofs2.
From Coq Require Import String List Lia Bool.
Import ListNotations.
Local Open Scope list_scope.
Open Scope Z_scope.

Lemma selects_exists c v : ~ cv c -> goes_by c v -> exists m, selects c v m.
Proof.
  intros N [[C _] | [_ (m & Hm & E)]]; [contradiction|]. destruct (get_component_mapping v [] c) as [m'|e] eqn:Em.
  - exists m'. apply mapping_some in Em. exact Em.
  - exfalso. unfold get_component_mapping in Em. destruct (find _ _) eqn:F in Em; [discriminate|].
    apply is_cv_false in N. rewrite N in F. pose proof (find_none _ _ F m Hm) as X. cbn beta in X. rewrite E, text_eqb_refl in X. discriminate.
Qed.
Lemma owner_goes cs v c : owner cs v c -> goes_by c v.
Proof. intros (l1 & l2 & _ & H & _). exact H. Qed.
Lemma owner_unique cs v a b : owner cs v a -> owner cs v b -> a = b.
Proof. intros A B. apply root_of_some in A. apply root_of_some in B. rewrite A in B. injection B as <-. reflexivity. Qed.

Section Errors.
Variables (ins outs : list text) (cs : list component) (al : aliases).
Hypothesis ND : NoDup (map c_name cs).
Let f := fun k => de_alias k al cs.
Lemma verify_raises inp p e : fst p = f (snd p) -> verify_param_exists inp (fst p) (snd p) cs = Raise e ->
  match e with
  | NameError k => k = snd p /\ (forall c, In c cs -> ~ goes_by c (f k))
  | TypeError k => k = snd p /\ exists c, owner cs (f k) c /\ (if inp then cv c \/ c_dir c = Some (T "output") else ~ cv c /\ c_dir c = Some (T "input"))
  | KeyError => exists c, owner cs (f (snd p)) c /\ ~ cv c /\ c_dir c = None
  end.
Proof.
  intros E. rewrite verify_eq, E. destruct (root_of cs (f (snd p))) as [c|] eqn:R.
  - pose proof (proj1 (root_of_some _ _ _) R) as Ow. destruct (is_cv c) eqn:C.
    + apply is_cv_iff in C. destruct inp; [|discriminate]. intros [= <-]. split; [reflexivity|]. exists c. split; [exact Ow|left; exact C].
    + apply is_cv_false in C. destruct (c_dir c) as [d|] eqn:D.
      * destruct inp; cbn [andb orb negb].
        -- rewrite orb_false_r. destruct (text_eqb_spec d (T "output")) as [->|]; [|discriminate].
           intros [= <-]. split; [reflexivity|]. exists c. split; [exact Ow|right; exact D].
        -- destruct (text_eqb_spec d (T "input")) as [->|]; [|discriminate].
           intros [= <-]. split; [reflexivity|]. exists c. split; [exact Ow|]. split; [exact C|exact D].
      * intros [= <-]. exists c. repeat split; assumption.
  - intros [= <-]. split; [reflexivity|]. apply root_of_none. exact R.
Qed.
Lemma parse_raises e : parse_parameters ins outs cs al = Raise e ->
  match e with
  | NameError k => (In k ins \/ In k outs) /\
      ((forall c, In c cs -> ~ goes_by c (f k)) \/ (In k outs /\ exists c, owner cs (f k) c /\ cv c /\ forall m, ~ selects c (f k) m))
  | TypeError k => exists c, owner cs (f k) c /\
      ((In k ins /\ (cv c \/ c_dir c = Some (T "output"))) \/ (In k outs /\ ~ cv c /\ c_dir c = Some (T "input")))
  | KeyError => exists k c, owner cs (f k) c /\
      (((In k ins \/ In k outs) /\ ~ cv c /\ c_dir c = None) \/ (exists m, selects c (f k) m /\ ((In k ins /\ m_get m = None) \/ (In k outs /\ m_set m = None))))
  end.
Proof.
  set (pin := params ins al cs). set (pout := params outs al cs). set (cs' := filter (wanted cs (pin ++ pout)) cs).
  assert (V : forall inp l r, each (fun p => verify_param_exists inp (fst p) (snd p) cs) l = Fine r -> forall p, In p l -> verify_param_exists inp (fst p) (snd p) cs = Fine tt).
  { intros inp l r E p Hp. apply each_fine in E. destruct (Forall2_in_l _ _ _ p E Hp) as (b & _ & Hb). exact (verify_tt _ _ _ _ _ Hb). }
  unfold parse_parameters. fold pin pout.
  destruct (each (fun p => verify_param_exists true (fst p) (snd p) cs) pin) as [r1|e1] eqn:E1; cbn [rbind].
  2: { intros [= <-]. apply each_raise in E1. destruct E1 as (p & Hp & R). destruct (params_from cs al ins p Hp) as [Hk Ef].
       pose proof (verify_raises true p e1 Ef R) as X. destruct e1 as [k|k|].
       - destruct X as [-> X]. split; [left; exact Hk|left; exact X].
       - destruct X as [-> (c & Ow & X)]. exists c. split; [exact Ow|left; split; assumption].
       - destruct X as (c & Ow & X). exists (snd p), c. split; [exact Ow|]. left. split; [left; exact Hk|exact X]. }
  destruct (each (fun p => verify_param_exists false (fst p) (snd p) cs) pout) as [r2|e2] eqn:E2; cbn [rbind].
  2: { intros [= <-]. apply each_raise in E2. destruct E2 as (p & Hp & R). destruct (params_from cs al outs p Hp) as [Hk Ef].
       pose proof (verify_raises false p e2 Ef R) as X. destruct e2 as [k|k|].
       - destruct X as [-> X]. split; [right; exact Hk|left; exact X].
       - destruct X as [-> (c & Ow & X)]. exists c. split; [exact Ow|right; split; assumption].
       - destruct X as (c & Ow & X). exists (snd p), c. split; [exact Ow|]. left. split; [right; exact Hk|exact X]. }
  pose proof (V _ _ _ E1) as A. pose proof (V _ _ _ E2) as B.
  assert (RA : forall p, In p (pin ++ pout) -> root_of cs (fst p) <> None).
  { intros p Hp C. apply in_app_iff in Hp. destruct Hp as [Hp | Hp]; [apply A in Hp|apply B in Hp]; rewrite verify_eq, C in Hp; discriminate. }
  rewrite (prune_eq cs (pin ++ pout) RA). fold cs'. cbn [rbind].
  destruct (each (in_param cs') pin) as [ri|e3] eqn:E3; cbn [rbind].
  2: { intros [= <-]. apply each_raise in E3. destruct E3 as (p & Hp & R). destruct (params_from cs al ins p Hp) as [Hk Ef].
       assert (Hpp : In p (pin ++ pout)) by (apply in_app_iff; left; exact Hp).
       destruct (root_of cs (fst p)) as [c|] eqn:Rt; [|exfalso; exact (RA p Hpp Rt)].
       destruct (kept cs (pin ++ pout) p c ND Hpp Rt) as [R' B']. fold cs' in R', B'.
       unfold in_param in R. rewrite get_root_eq, R' in R. cbn [rbind] in R. rewrite B' in R.
       pose proof (A p Hp) as Vp. apply verify_fine in Vp. destruct Vp as (c2 & Ow2 & Nc & _). apply root_of_some in Rt.
       rewrite (owner_unique _ _ _ _ Ow2 Rt) in Nc. fold f in Ef. rewrite Ef in Rt.
       destruct (get_component_mapping (fst p) (snd p) c) as [m|e4] eqn:Em; cbn [rbind] in R.
       - destruct (m_get m) eqn:Eg; [discriminate|]. injection R as <-. apply mapping_some in Em. rewrite Ef in Em. exists (snd p), c.
         split; [exact Rt|]. right. exists m. split; [exact Em|]. left. split; assumption.
       - exfalso. apply mapping_raise in Em. destruct Em as [_ Em]. destruct (selects_exists c (fst p) Nc) as [m Hm]; [|exact (Em m Hm)].
         rewrite Ef. exact (owner_goes _ _ _ Rt). }
  destruct (each (out_param cs') _) as [ro|e3] eqn:E4; cbn [rbind]; [discriminate|].
  intros [= <-]. apply each_raise in E4. destruct E4 as ([i p] & Hx & R). apply in_combine_seq in Hx. rename Hx into Hp.
  destruct (params_from cs al outs p Hp) as [Hk Ef].
  assert (Hpp : In p (pin ++ pout)) by (apply in_app_iff; right; exact Hp).
  destruct (root_of cs (fst p)) as [c|] eqn:Rt; [|exfalso; exact (RA p Hpp Rt)].
  destruct (kept cs (pin ++ pout) p c ND Hpp Rt) as [R' B']. fold cs' in R', B'.
  unfold out_param in R. cbn [fst snd] in R. rewrite get_root_eq, R' in R. cbn [rbind] in R. rewrite B' in R.
  apply root_of_some in Rt. fold f in Ef. rewrite Ef in Rt.
  destruct (get_component_mapping (fst p) (snd p) c) as [m|e4] eqn:Em; cbn [rbind] in R.
  - destruct (m_set m) eqn:Eg; [discriminate|]. injection R as <-. apply mapping_some in Em. rewrite Ef in Em. exists (snd p), c.
    split; [exact Rt|]. right. exists m. split; [exact Em|]. right. split; assumption.
  - injection R as <-. apply mapping_raise in Em. destruct Em as [-> Em]. split; [right; exact Hk|]. right. split; [exact Hk|]. exists c. split; [exact Rt|].
    rewrite Ef in Em. split; [|exact Em]. destruct (is_cv c) eqn:C; [apply is_cv_iff; exact C|]. exfalso. apply is_cv_false in C.
    destruct (selects_exists c (f (snd p)) C (owner_goes _ _ _ Rt)) as [m Hm]. exact (Em m Hm).
Qed.
Lemma parse_components g : parse_parameters ins outs cs al = Fine g ->
  forall c, In c cs -> (In c (g_components g) <-> c_parent c = true \/ exists k, (In k ins \/ In k outs) /\ owner cs (f k) c).
Proof.
  intros G c Hc. apply parse_fine in G. destruct G as (_ & _ & -> & _). rewrite filter_In. unfold wanted. rewrite orb_true_iff, existsb_exists. split.
  - intros [_ [P | (p & Hp & E)]]; [left; exact P|right]. destruct (root_of cs (fst p)) as [b|] eqn:R; [|discriminate]. apply text_eqb_eq in E.
    apply root_of_some in R. assert (b = c) as ->.
    { pose proof (by_name_unique cs b ND (first_in _ _ _ R)) as X. rewrite E, (by_name_unique cs c ND Hc) in X. injection X as <-. reflexivity. }
    exists (snd p). apply in_app_iff in Hp. destruct Hp as [Hp | Hp]; destruct (params_from cs al _ p Hp) as [Hk Ef]; change (fst p = f (snd p)) in Ef; (split; [auto|]); rewrite <- Ef; exact R.
  - intros [P | (k & Hk & Ow)]; split; auto. right.
    assert (X : exists p, In p (params ins al cs ++ params outs al cs) /\ fst p = f k).
    { destruct Hk as [Hk | Hk]; destruct (params_some cs al _ k Hk) as (p & Hp & E); exists p; (split; [apply in_app_iff; auto|exact E]). }
    destruct X as (p & Hp & E). exists p. split; [exact Hp|]. rewrite E. apply root_of_some in Ow. rewrite Ow. apply text_eqb_refl.
Qed.
Lemma parse_components_order g : parse_parameters ins outs cs al = Fine g -> exists P, g_components g = filter P cs.
Proof. intros G. apply parse_fine in G. destruct G as (_ & _ & -> & _). eexists. reflexivity. Qed.
End Errors.

(** ** Aliases *)
Lemma lower_small name : Forall2 small_of name (lower name).
Proof.
  unfold lower. induction name as [|c name IH]; cbn [map]; constructor; [|exact IH]. unfold small_of, lower_char.
  destruct ((65 <=? c) && (c <=? 90)) eqn:E; [left|right]; lia.
Qed.
Lemma small_lower name low : Forall2 small_of name low -> low = lower name.
Proof.
  unfold lower. intros H. induction H as [|a b l r Hab H IH]; [reflexivity|]. cbn [map]. rewrite <- IH. f_equal. unfold small_of, lower_char in *.
  destruct ((65 <=? a) && (a <=? 90)) eqn:E; lia.
Qed.
Lemma lookup_some k (al : aliases) t : lookup k al = Some t -> In (k, t) al.
Proof. unfold lookup. destruct (find (fun x => text_eqb (fst x) k) al) as [[a b]|] eqn:E; [|discriminate]. intros [= <-]. apply find_some in E. destruct E as [H E]. cbn in E. apply text_eqb_eq in E. subst. exact H. Qed.
Lemma lookup_in k (al : aliases) t : NoDup (map fst al) -> In (k, t) al -> lookup k al = Some t.
Proof.
  unfold lookup. induction al as [|[a b] al IH]; cbn [map fst find]; intros H; [intros []|]. apply NoDup_cons_iff in H. destruct H as [Ha H].
  intros [[= -> ->] | Hk]; [rewrite text_eqb_refl; reflexivity|]. destruct (text_eqb_spec a k) as [-> | N]; [|exact (IH H Hk)].
  exfalso. apply Ha. change k with (fst (k, t)). apply in_map. exact Hk.
Qed.
Lemma lookup_none k (al : aliases) : lookup k al = None <-> ~ In k (map fst al).
Proof.
  unfold lookup. split.
  - destruct (find (fun x => text_eqb (fst x) k) al) as [x|] eqn:E; [discriminate|]. intros _ C. apply in_map_iff in C. destruct C as (x & Ex & Hx).
    pose proof (find_none _ _ E x Hx) as X. cbn beta in X. rewrite <- Ex, text_eqb_refl in X. discriminate.
  - intros N. destruct (find (fun x => text_eqb (fst x) k) al) as [x|] eqn:E; [|reflexivity]. apply find_some in E. destruct E as [Hx E]. apply text_eqb_eq in E. exfalso. apply N. rewrite <- E. apply in_map. exact Hx.
Qed.
Lemma first_some_some {A B} (g : A -> option B) l b : first_some g l = Some b -> exists a, In a l /\ g a = Some b.
Proof.
  induction l as [|a l IH]; cbn [first_some]; [discriminate|]. destruct (g a) as [x|] eqn:E.
  - intros [= <-]. exists a. split; [left; reflexivity|exact E].
  - intros H. destruct (IH H) as (y & Hy & Ey). exists y. split; [right; exact Hy|exact Ey].
Qed.
Lemma first_some_none {A B} (g : A -> option B) l : first_some g l = None -> forall a, In a l -> g a = None.
Proof.
  induction l as [|a l IH]; cbn [first_some]; [intros _ x []|]. destruct (g a) as [x|] eqn:E; [discriminate|].
  intros H y [<- | Hy]; [exact E|exact (IH H y Hy)].
Qed.
Lemma by_name_first n cs c : by_name n cs = Some c <-> first_such (fun c => c_name c = n) cs c.
Proof. apply find_first. intros a. apply text_eqb_eq. Qed.
Lemma de_alias_cases name al cs low : Forall2 small_of name low ->
  (forall t, NoDup (map fst al) -> In (low, t) al -> de_alias name al cs = t) /\
  (~ In low (map fst al) -> alias_variant al cs low (de_alias name al cs) \/ ((forall n, ~ alias_variant al cs low n) /\ de_alias name al cs = low)).
Proof.
  intros L. apply small_lower in L. unfold de_alias. rewrite <- L. split.
  - intros t H Ht. rewrite (lookup_in low al t H Ht). reflexivity.
  - intros N. apply lookup_none in N. rewrite N. destruct (first_some (alias_round cs low) al) as [n|] eqn:F.
    + left. apply first_some_some in F. destruct F as ([a t] & Ha & F). unfold alias_round in F. cbn [fst snd] in F.
      destruct (inside a low) eqn:Ei; [|discriminate]. apply inside_iff in Ei. destruct (by_name t cs) as [c|] eqn:Ec; [|discriminate].
      apply by_name_first in Ec. destruct (is_cv c) eqn:Cv; [discriminate|]. apply is_cv_false in Cv.
      destruct (find _ (c_map c)) as [m|] eqn:Em in F; [|discriminate]. injection F as <-. apply find_some in Em. destruct Em as [Hm Em]. apply text_eqb_eq in Em.
      exists a, t, c, m. repeat split; assumption.
    + right. split; [|reflexivity]. intros n (a & t & c & m & Ha & Su & Fc & Nc & Hm & Ea & _).
      pose proof (first_some_none _ _ F (a, t) Ha) as X. unfold alias_round in X. cbn [fst snd] in X. apply inside_iff in Su. rewrite Su in X.
      apply by_name_first in Fc. rewrite Fc in X. apply is_cv_false in Nc. rewrite Nc in X. destruct (find _ (c_map c)) eqn:Em in X; [discriminate|].
      pose proof (find_none _ _ Em m Hm) as Y. cbn beta in Y. rewrite Ea, text_eqb_refl in Y. discriminate.
Qed.

(** ** The send hook *)
Lemma write_at_length {V} (d : list V) i v : length (write_at d i v) = length d.
Proof.
  unfold write_at. rewrite app_length, firstn_length. destruct (skipn i d) as [|x r] eqn:E.
  - pose proof (f_equal (@length V) E) as L. rewrite skipn_length in L. cbn [length] in *. lia.
  - pose proof (f_equal (@length V) E) as L. rewrite skipn_length in L. cbn [length] in *. lia.
Qed.
Lemma write_at_nth {V} (d : list V) : forall i v j, nth_error (write_at d i v) j = if Nat.eqb j i then option_map (fun _ => v) (nth_error d j) else nth_error d j.
Proof.
  unfold write_at. induction d as [|x d IH]; intros i v j.
  - rewrite firstn_nil, skipn_nil. cbn [app]. destruct j; cbn [nth_error]; destruct (Nat.eqb _ _); reflexivity.
  - destruct i as [|i]; cbn [firstn skipn app].
    + destruct j; reflexivity.
    + destruct j as [|j]; [reflexivity|]. cbn [nth_error Nat.eqb]. apply IH.
Qed.
Lemma send_none {V} rows h (v : V) : forall d calls, ~ In h (map (fun r => hv_string_to_hash (o_enum r)) rows) -> send_hook rows h v d calls = (d, calls).
Proof.
  induction rows as [|r rows IH]; intros d calls N; cbn [send_hook]; [reflexivity|].
  destruct (hv_string_to_hash (o_enum r) =? h) eqn:E; [exfalso; apply N; left; apply Z.eqb_eq; exact E|]. apply IH. intros C. apply N. right. exact C.
Qed.
Lemma send_one {V} rows r (v : V) : forall d, NoDup (map (fun r => hv_string_to_hash (o_enum r)) rows) -> In r rows ->
  send_hook rows (hv_string_to_hash (o_enum r)) v d [] = (write_at d (o_index r) v, match o_place r with Hook => [(o_name r, v)] | _ => [] end).
Proof.
  induction rows as [|b rows IH]; intros d H; [intros []|]. cbn [map] in H. apply NoDup_cons_iff in H. destruct H as [Hb H]. intros [-> | Hr]; cbn [send_hook].
  - rewrite Z.eqb_refl. rewrite send_none by exact Hb. destruct (o_place r); reflexivity.
  - destruct (Z.eqb_spec (hv_string_to_hash (o_enum b)) (hv_string_to_hash (o_enum r))) as [E | E]; [|exact (IH d H Hr)].
    exfalso. apply Hb. rewrite E. apply (in_map (fun r => hv_string_to_hash (o_enum r))). exact Hr.
Qed.
