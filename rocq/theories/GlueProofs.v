(** Lemmas about the board glue. *)
From Verif Require Export GlueSpec ArgsProofs.
From Coq Require Import String List Lia Bool.
Import ListNotations.
Local Open Scope list_scope.
Open Scope Z_scope.

Lemma find_first {A} (f : A -> bool) (P : A -> Prop) l (H : forall a, f a = true <-> P a) a : find f l = Some a <-> first_such P l a.
Proof.
  split.
  - induction l as [|b l IH]; cbn [find]; [discriminate|]. destruct (f b) eqn:E.
    + intros [= <-]. exists [], l. split; [reflexivity|]. split; [apply H; exact E|]. intros x [].
    + intros F. destruct (IH F) as (l1 & l2 & -> & Pa & N). exists (b :: l1), l2. split; [reflexivity|]. split; [exact Pa|].
      intros x [<- | Hx]; [|apply N; exact Hx]. intros C. apply H in C. congruence.
  - intros (l1 & l2 & -> & Pa & N). induction l1 as [|b l1 IH]; cbn [app find].
    + apply H in Pa. rewrite Pa. reflexivity.
    + destruct (f b) eqn:E; [|apply IH; intros x Hx; apply N; right; exact Hx].
      exfalso. apply (N b (or_introl eq_refl)). apply H. exact E.
Qed.
Lemma find_nothing {A} (f : A -> bool) (P : A -> Prop) l (H : forall a, f a = true <-> P a) : find f l = None <-> forall a, In a l -> ~ P a.
Proof.
  split.
  - intros F a Ha C. apply H in C. pose proof (find_none _ _ F a Ha). congruence.
  - intros N. destruct (find f l) as [a|] eqn:E; [|reflexivity]. apply find_some in E. destruct E as [Ha E].
    exfalso. apply (N a Ha). apply H. exact E.
Qed.
Lemma first_in {A} (P : A -> Prop) l a : first_such P l a -> In a l.
Proof. intros (l1 & l2 & -> & _). apply in_elt. Qed.

Lemma is_cv_iff c : is_cv c = true <-> cv c.
Proof. unfold is_cv, cv. apply text_eqb_eq. Qed.
Lemma is_cv_false c : is_cv c = false <-> ~ cv c.
Proof. rewrite <- is_cv_iff. destruct (is_cv c); split; congruence. Qed.
Lemma existsb_text a l : existsb (text_eqb a) l = true <-> In a l.
Proof.
  rewrite existsb_exists. split.
  - intros (x & Hx & E). apply text_eqb_eq in E. subst. exact Hx.
  - intros Ha. exists a. split; [exact Ha | apply text_eqb_refl].
Qed.
Lemma owns_iff c name : owns c name = true <-> goes_by c name.
Proof.
  unfold owns, goes_by. destruct (is_cv c) eqn:E.
  - apply is_cv_iff in E. rewrite text_eqb_eq. split; [intros ->; left; split; [exact E|reflexivity]|]. intros [[_ ->] | [C _]]; [reflexivity|contradiction].
  - apply is_cv_false in E. rewrite existsb_text. unfold variants. rewrite in_map_iff. split.
    + intros (m & F & Hm). right. split; [exact E|]. exists m. split; assumption.
    + intros [[C _] | [_ (m & Hm & F)]]; [contradiction|]. exists m. split; assumption.
Qed.
Definition root_of (cs : list component) (name : text) : option component := find (fun c => owns c name) cs.
Lemma root_of_some cs name c : root_of cs name = Some c <-> owner cs name c.
Proof. apply find_first. intros a. apply owns_iff. Qed.
Lemma root_of_none cs name : root_of cs name = None <-> forall c, In c cs -> ~ goes_by c name.
Proof. apply find_nothing. intros a. apply owns_iff. Qed.
Lemma get_root_eq v o cs : get_root_component v o cs = match root_of cs v with Some c => Fine (c_name c) | None => Raise (NameError o) end.
Proof. unfold root_of. induction cs as [|c r IH]; cbn [get_root_component find]; [reflexivity|]. destruct (owns c v); [reflexivity|exact IH]. Qed.
Lemma verify_eq inp v o cs : verify_param_exists inp v o cs = match root_of cs v with
  | None => Raise (NameError o)
  | Some c => if is_cv c then if inp then Raise (TypeError o) else Fine tt else
      match c_dir c with None => Raise KeyError
      | Some d => if inp && text_eqb d (T "output") || negb inp && text_eqb d (T "input") then Raise (TypeError o) else Fine tt end end.
Proof.
  unfold root_of. induction cs as [|c r IH]; cbn [verify_param_exists find]; [reflexivity|]. unfold owns at 1. destruct (is_cv c) eqn:E.
  - destruct (text_eqb v (c_name c)); [rewrite E; reflexivity|exact IH].
  - destruct (existsb (text_eqb v) (variants c)); [rewrite E; reflexivity|exact IH].
Qed.

Lemma starts_iff x : forall s, starts x s = true <-> exists b, s = x ++ b.
Proof.
  induction x as [|a x IH]; intros s; cbn [starts].
  - split; [intros _; exists s; reflexivity|intros _; destruct s; reflexivity].
  - destruct s as [|b s]; [split; [discriminate|intros (b & E); discriminate]|]. rewrite andb_true_iff, Z.eqb_eq, IH. split.
    + intros [-> (t & ->)]. exists t. reflexivity.
    + intros (t & E). injection E as <- ->. split; [reflexivity|]. exists t. reflexivity.
Qed.
Lemma inside_iff x s : inside x s = true <-> occurs_in x s.
Proof.
  induction s as [|c s IH]; cbn [inside]; rewrite orb_true_iff, starts_iff; unfold occurs_in in *.
  - split.
    + intros [(b & E) | C]; [|discriminate]. exists [], b. exact E.
    + intros (a & b & E). symmetry in E. apply app_eq_nil in E. destruct E as [-> E]. left. exists b. exact (eq_sym E).
  - rewrite IH. split.
    + intros [(b & E) | (a & b & E)]; [exists [], b; exact E|]. exists (c :: a), b. rewrite E. reflexivity.
    + intros ([|a0 a] & b & E); [left; exists b; exact E|]. right. injection E as _ E. exists a, b. exact E.
Qed.
Lemma mapping_some v o c m : get_component_mapping v o c = Fine m <-> selects c v m.
Proof.
  unfold get_component_mapping, selects.
  rewrite <- (find_first (fun m => if is_cv c then inside (format (m_name m) []) (c_name c) else text_eqb (format (m_name m) (c_name c)) v)).
  - destruct (find _ (c_map c)); split; congruence.
  - intros a. destruct (is_cv c) eqn:E.
    + apply is_cv_iff in E. rewrite inside_iff. split; [intros H; left; split; assumption|intros [[_ H] | [C _]]; [exact H|contradiction]].
    + apply is_cv_false in E. rewrite text_eqb_eq. split; [intros H; right; split; assumption|intros [[C _] | [_ H]]; [contradiction|exact H]].
Qed.
Lemma mapping_raise v o c e : get_component_mapping v o c = Raise e -> e = NameError o /\ forall m, ~ selects c v m.
Proof.
  intros E. split.
  - unfold get_component_mapping in E. destruct (find _ _) in E; [discriminate|]. injection E as <-. reflexivity.
  - intros m S. apply (mapping_some v o) in S. congruence.
Qed.

(** ** Removing what is not used *)
Lemma root_app l P r name c : root_of (l ++ r) name = Some c -> P c = true -> root_of (l ++ filter P r) name = Some c.
Proof.
  unfold root_of. induction l as [|b l IH]; cbn [app find].
  - induction r as [|b r IH]; cbn [find filter]; [discriminate|]. destruct (owns b name) eqn:E.
    + intros [= <-] Pb. rewrite Pb. cbn [find]. rewrite E. reflexivity.
    + intros F Pc. destruct (P b); [cbn [find]; rewrite E|]; exact (IH F Pc).
  - destruct (owns b name); [intros F _; exact F|exact IH].
Qed.
Definition wanted (cs : list component) (ps : list (text * text)) (c : component) : bool :=
  c_parent c || existsb (fun p => match root_of cs (fst p) with Some b => text_eqb (c_name b) (c_name c) | None => false end) ps.
Lemma used_eq c ps cs : (forall p, In p ps -> root_of cs (fst p) <> None) ->
  used_in c ps cs = Fine (existsb (fun p => match root_of cs (fst p) with Some b => text_eqb (c_name b) (c_name c) | None => false end) ps).
Proof.
  induction ps as [|p ps IH]; intros H; cbn [used_in existsb]; [reflexivity|]. rewrite get_root_eq.
  destruct (root_of cs (fst p)) as [b|] eqn:E; [|exfalso; apply (H p (or_introl eq_refl)); exact E]. cbn [rbind].
  destruct (text_eqb (c_name b) (c_name c)); [reflexivity|]. apply IH. intros q Hq. apply H. right. exact Hq.
Qed.
Lemma existsb_ext_in {A} (f g : A -> bool) l : (forall a, In a l -> f a = g a) -> existsb f l = existsb g l.
Proof. induction l as [|a l IH]; intros H; cbn [existsb]; [reflexivity|]. rewrite (H a (or_introl eq_refl)), IH; [reflexivity|]. intros x Hx. apply H. right. exact Hx. Qed.
Lemma prune_eq cs ps : (forall p, In p ps -> root_of cs (fst p) <> None) ->
  prune (length cs) ps cs = Fine (filter (wanted cs ps) cs).
Proof.
  intros H. set (P := wanted cs ps).
  assert (G : forall n, (n <= length cs)%nat -> prune n ps (firstn n cs ++ filter P (skipn n cs)) = Fine (filter P cs)).
  { induction n as [|n IH]; intros Hn; [reflexivity|]. cbn [prune].
    destruct (nth_error cs n) as [c|] eqn:Ec; [|apply nth_error_None in Ec; lia].
    assert (D : cs = firstn n cs ++ c :: skipn (S n) cs).
    { clear - Ec. revert cs Ec. induction n as [|n IH]; intros [|b l] Ec; try discriminate; cbn in Ec |- *.
      - injection Ec as <-. reflexivity.
      - f_equal. apply IH. exact Ec. }
    assert (L : length (firstn n cs) = n) by (apply firstn_length_le; lia).
    assert (F : firstn (S n) cs = firstn n cs ++ [c]).
    { clear - Ec. revert cs Ec. induction n as [|n IH]; intros [|b l] Ec; try discriminate; cbn in Ec |- *.
      - injection Ec as <-. reflexivity.
      - f_equal. apply IH. exact Ec. }
    assert (K : skipn n cs = c :: skipn (S n) cs).
    { clear - Ec. revert cs Ec. induction n as [|n IH]; intros [|b l] Ec; try discriminate; cbn in Ec |- *.
      - injection Ec as <-. reflexivity.
      - apply IH. exact Ec. }
    set (cur := firstn (S n) cs ++ filter P (skipn (S n) cs)).
    assert (Hc : nth_error cur n = Some c).
    { unfold cur. rewrite F, <- app_assoc. rewrite nth_error_app2; [|lia]. rewrite L, Nat.sub_diag. reflexivity. }
    assert (R : forall p, In p ps -> root_of cur (fst p) = root_of cs (fst p)).
    { intros p Hp. destruct (root_of cs (fst p)) as [b|] eqn:E; [|exfalso; exact (H p Hp E)].
      apply root_app; [rewrite firstn_skipn; exact E|]. unfold P, wanted. apply orb_true_iff. right. apply existsb_exists. exists p.
      split; [exact Hp|]. rewrite E. apply text_eqb_refl. }
    fold cur. rewrite Hc.
    assert (V : verify_param_used c ps cur = Fine (P c)).
    { unfold verify_param_used, P, wanted. destruct (c_parent c); [reflexivity|]. cbn [orb]. rewrite used_eq.
      - f_equal. apply existsb_ext_in. intros p Hp. rewrite (R p Hp). reflexivity.
      - intros p Hp. rewrite (R p Hp). exact (H p Hp). }
    rewrite V. cbn [rbind]. rewrite <- IH by lia. f_equal. unfold cur. rewrite F, K. cbn [filter]. rewrite <- app_assoc.
    destruct (P c); [reflexivity|]. unfold pop. cbn [app]. rewrite firstn_app, L, Nat.sub_diag, firstn_O, app_nil_r.
    replace (firstn n (firstn n cs)) with (firstn n cs) by (rewrite <- L at 2; rewrite firstn_all; reflexivity). f_equal.
    rewrite skipn_app, L. replace (S n - n)%nat with 1%nat by lia. rewrite skipn_all2 by lia. reflexivity. }
  specialize (G (length cs) (le_n _)). rewrite firstn_all, skipn_all in G. cbn [filter] in G. rewrite app_nil_r in G. exact G.
Qed.

(** ** The dictionaries *)
Lemma set_key_keys d k v : map fst (set_key d k v) = if existsb (text_eqb k) (map fst d) then map fst d else map fst d ++ [k].
Proof.
  induction d as [|[a b] d IH]; cbn [set_key map fst existsb]; [reflexivity|].
  destruct (text_eqb_spec a k) as [-> | N]; [rewrite text_eqb_refl; reflexivity|]. cbn [map fst]. rewrite IH.
  destruct (text_eqb_spec k a) as [-> | N']; [contradiction|]. cbn [orb]. destruct (existsb _ _); reflexivity.
Qed.
Lemma set_key_nodup d k v : NoDup (map fst d) -> NoDup (map fst (set_key d k v)).
Proof.
  intros H. rewrite set_key_keys. destruct (existsb _ _) eqn:E; [exact H|].
  assert (N : ~ In k (map fst d)) by (intros C; apply existsb_text in C; congruence).
  revert H N. generalize (map fst d). intros l H N. induction H as [|a l Ha H IH]; cbn [app]; [constructor; [intros []|constructor]|].
  constructor; [|apply IH; intros C; apply N; right; exact C].
  intros C. apply in_app_iff in C. destruct C as [C | [<- | []]]; [contradiction|]. apply N. left. reflexivity.
Qed.
Lemma set_key_in d k v p : NoDup (map fst d) -> In p (set_key d k v) <-> p = (k, v) \/ (In p d /\ fst p <> k).
Proof.
  induction d as [|[a b] d IH]; cbn [set_key map fst]; intros H.
  - split; [intros [<- | []]; left; reflexivity|intros [-> | [[] _]]; left; reflexivity].
  - apply NoDup_cons_iff in H. destruct H as [Ha H]. destruct (text_eqb_spec a k) as [-> | N].
    + split.
      * intros [<- | Hp]; [left; reflexivity|]. right. split; [right; exact Hp|]. intros C. apply Ha. rewrite <- C. apply in_map. exact Hp.
      * intros [-> | [[<- | Hp] Np]]; [left; reflexivity|exfalso; apply Np; reflexivity|right; exact Hp].
    + cbn [In]. rewrite (IH H). split.
      * intros [<- | [-> | [Hp Np]]]; [right; split; [left; reflexivity|exact N]|left; reflexivity|right; split; [right; exact Hp|exact Np]].
      * intros [-> | [[<- | Hp] Np]]; [right; left; reflexivity|left; reflexivity|right; right; split; assumption].
Qed.
Section Params.
Variable f : text -> text.
Let dict (names : list text) (d : list (text * text)) : list (text * text) := fold_left (fun d k => set_key d (f k) k) names d.
Lemma dict_snoc names k d : dict (names ++ [k]) d = set_key (dict names d) (f k) k.
Proof. unfold dict. rewrite fold_left_app. reflexivity. Qed.
Lemma dict_nodup names : NoDup (map fst (dict names [])).
Proof. induction names as [|k names IH] using rev_ind; [constructor|]. rewrite dict_snoc. apply set_key_nodup. exact IH. Qed.
Lemma dict_in names p : In p (dict names []) <-> last_such (fun k => f k = fst p) names (snd p).
Proof.
  induction names as [|k names IH] using rev_ind.
  - split; [intros []|]. intros (l1 & l2 & E & _). destruct l1; discriminate.
  - rewrite dict_snoc, set_key_in by apply dict_nodup. rewrite IH. split.
    + intros [-> | [(l1 & l2 & -> & E & N) Nk]].
      * exists names, []. split; [reflexivity|]. split; [reflexivity|intros b []].
      * exists l1, (l2 ++ [k]). split; [rewrite <- app_assoc; reflexivity|]. split; [exact E|].
        intros b Hb. apply in_app_iff in Hb. destruct Hb as [Hb | [<- | []]]; [exact (N b Hb)|]. intros C. apply Nk. symmetry. exact C.
    + intros (l1 & l2 & D & E & N). destruct l2 as [|x l2] using rev_ind.
      * apply app_inj_tail in D. destruct D as [-> D]. left. destruct p as [a b]. cbn in *. subst. reflexivity.
      * clear IHl2. rewrite app_comm_cons, app_assoc in D. apply app_inj_tail in D. destruct D as [-> <-].
        right. split; [exists l1, l2; split; [reflexivity|]; split; [exact E|]; intros b Hb; apply N; apply in_app_iff; left; exact Hb|].
        intros C. apply (N k); [apply in_app_iff; right; left; reflexivity|]. symmetry. exact C.
Qed.
Lemma dict_distinct names : NoDup (map f names) -> dict names [] = map (fun k => (f k, k)) names.
Proof.
  induction names as [|k names IH] using rev_ind; intros H; [reflexivity|]. rewrite map_app in H. cbn [map] in H.
  rewrite dict_snoc, IH.
  - assert (N : ~ In (f k) (map f names)).
    { intros C. apply NoDup_remove_2 in H. apply H. rewrite app_nil_r. exact C. }
    rewrite map_app. cbn [map]. revert N. generalize names. clear. intros names N. induction names as [|a names IH]; [reflexivity|]. cbn [map app set_key].
    destruct (text_eqb_spec (f a) (f k)) as [E | E]; [exfalso; apply N; left; exact E|]. f_equal. apply IH. intros C. apply N. right. exact C.
  - apply NoDup_remove_1 in H. rewrite app_nil_r in H. exact H.
Qed.
Lemma last_exists names k : In k names -> exists k', last_such (fun x => f x = f k) names k'.
Proof.
  induction names as [|a names IH] using rev_ind; [intros []|]. intros Hk.
  destruct (text_eqb_spec (f a) (f k)) as [E | E].
  - exists a, names, []. split; [reflexivity|]. split; [exact E|intros b []].
  - apply in_app_iff in Hk. destruct Hk as [Hk | [<- | []]]; [|exfalso; apply E; reflexivity].
    destruct (IH Hk) as (k' & l1 & l2 & -> & F & N). exists k', l1, (l2 ++ [a]). split; [rewrite <- app_assoc; reflexivity|]. split; [exact F|].
    intros b Hb. apply in_app_iff in Hb. destruct Hb as [Hb | [<- | []]]; [exact (N b Hb)|exact E].
Qed.
End Params.

(** ** each *)
Lemma each_fine {A B} (f : A -> result B) l r : each f l = Fine r <-> Forall2 (fun a b => f a = Fine b) l r.
Proof.
  revert r. induction l as [|a l IH]; intros r; cbn [each].
  - split; [intros [= <-]; constructor|intros H; inversion H; reflexivity].
  - split.
    + destruct (f a) as [b|] eqn:E; [|discriminate]. cbn [rbind]. destruct (each f l) as [t|] eqn:Et; [|discriminate]. cbn [rbind].
      intros [= <-]. constructor; [exact E|]. apply IH. reflexivity.
    + intros H. inversion H as [|? b ? t E Ht]; subst. rewrite E. cbn [rbind]. apply IH in Ht. rewrite Ht. reflexivity.
Qed.
Lemma each_raise {A B} (f : A -> result B) l e : each f l = Raise e -> exists a, In a l /\ f a = Raise e.
Proof.
  induction l as [|a l IH]; cbn [each]; [discriminate|]. destruct (f a) as [b|e'] eqn:E; cbn [rbind].
  - destruct (each f l) as [t|e'] eqn:Et; cbn [rbind]; [discriminate|]. intros [= ->]. destruct (IH eq_refl) as (x & Hx & Ex).
    exists x. split; [right; exact Hx|exact Ex].
  - intros [= <-]. exists a. split; [left; reflexivity|exact E].
Qed.
Lemma each_total {A B} (f : A -> result B) l : (forall a, In a l -> exists b, f a = Fine b) -> exists r, each f l = Fine r.
Proof.
  induction l as [|a l IH]; intros H; cbn [each]; [exists []; reflexivity|].
  destruct (H a (or_introl eq_refl)) as [b E]. rewrite E. cbn [rbind]. destruct IH as [t Et]; [intros x Hx; apply H; right; exact Hx|].
  rewrite Et. exists (b :: t). reflexivity.
Qed.
Lemma Forall2_in_r {A B} (R : A -> B -> Prop) l r b : Forall2 R l r -> In b r -> exists a, In a l /\ R a b.
Proof.
  intros H. induction H as [|a b' l r Rab H IH]; [intros []|]. intros [<- | Hb]; [exists a; split; [left; reflexivity|exact Rab]|].
  destruct (IH Hb) as (x & Hx & Rx). exists x. split; [right; exact Hx|exact Rx].
Qed.
Lemma Forall2_in_l {A B} (R : A -> B -> Prop) l r a : Forall2 R l r -> In a l -> exists b, In b r /\ R a b.
Proof.
  intros H. induction H as [|a' b l r Rab H IH]; [intros []|]. intros [<- | Ha]; [exists b; split; [left; reflexivity|exact Rab]|].
  destruct (IH Ha) as (x & Hx & Rx). exists x. split; [right; exact Hx|exact Rx].
Qed.
Lemma Forall2_map_eq {A B C} (g : A -> C) (h : B -> C) (R : A -> B -> Prop) l r :
  (forall a b, R a b -> g a = h b) -> Forall2 R l r -> map g l = map h r.
Proof. intros E H. induction H as [|a b l r Rab H IH]; cbn [map]; [reflexivity|]. rewrite (E a b Rab), IH. reflexivity. Qed.
