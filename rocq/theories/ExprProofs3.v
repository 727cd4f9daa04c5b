(** Variables of control expr; expr~ calls. *)
From Verif Require Import ExprSpec ArgsProofs ExprProofs ExprProofs2.
From Coq Require Import String List ZifyBool Permutation.
From Verif Require Import Base.
Import ListNotations.
Local Open Scope list_scope.
Local Open Scope Z_scope.

(** ** Decimal numbers *)
Lemma int_of_app a c : int_of (a ++ [c]) = int_of a * 10 + (c - 48).
Proof. unfold int_of. now rewrite fold_left_app. Qed.
Lemma dec_fuel_ok n : forall z, 0 <= z < Z.of_nat n -> digits (dec_fuel n z) /\ int_of (dec_fuel n z) = z.
Proof.
  induction n as [| n IH]; intros z H; [lia|]. cbn [dec_fuel]. destruct (Z.ltb_spec z 10).
  - split; [split; [discriminate | repeat constructor; lia]|]. unfold int_of; cbn [fold_left]. lia.
  - assert (0 <= z / 10 < Z.of_nat n) by (Z.to_euclidean_division_equations; lia).
    destruct (IH (z / 10) H1) as [[D1 D2] E]. split.
    + split; [now destruct (dec_fuel n (z / 10))|]. apply Forall_app; split; [exact D2|]. constructor; [| constructor].
      pose proof (Z.mod_pos_bound z 10). lia.
    + rewrite int_of_app, E. pose proof (Z.div_mod z 10). lia.
Qed.
Lemma dec_ok z : 0 <= z -> digits (dec z) /\ int_of (dec z) = z.
Proof. intros H. unfold dec. replace (z <? 0) with false by lia. apply dec_fuel_ok. lia. Qed.

(** ** Finding the variables *)
Definition head_ok (s : text) : Prop := match s with c :: _ => is_digit c = false | [] => True end.
Definition vshape (r : text) : Prop := exists t d, r = t :: d /\ In t [102; 105] /\ digits d /\ 1 <= int_of d.
Fixpoint cut (ts : list token) : Prop :=
  match ts with
  | [] => True
  | Lit s :: ts' => plain s /\ cut ts'
  | Ref r :: ts' => vshape r /\ head_ok (render [DOLLAR] ts') /\ cut ts'
  end.
Lemma cut_of ts : cut_ok ts -> cut ts.
Proof.
  induction ts as [| [s | r] ts IH]; cbn [cut_ok cut]; [tauto | tauto |]. intros (A & B & C).
  split; [exact A|]. split; [|auto]. unfold head_ok. destruct (render [DOLLAR] ts); [exact I|]. unfold is_digit. lia.
Qed.
Lemma digits_span' d rest : digits d -> head_ok rest -> span_digits (d ++ rest) = (d, rest).
Proof.
  intros [_ D] N. induction D as [| c d C D IH]; cbn [app].
  - destruct rest as [| c rest]; [reflexivity|]. cbn [span_digits]. cbn in N. now rewrite N.
  - cbn [span_digits]. replace (is_digit c) with true by (unfold is_digit; lia). now rewrite IH.
Qed.
Lemma find_plain s rest : plain s -> forall n, (length (s ++ rest) <= n)%nat ->
  exists n', (length rest <= n')%nat /\ find_vars_fuel n (s ++ rest) = find_vars_fuel n' rest.
Proof.
  induction s as [| c s IH]; intros P n L; [exists n; auto|].
  cbn [app length] in L. destruct n as [| n]; [lia|].
  destruct (IH (fun C => P (or_intror C)) n) as (n' & L' & E); [lia|]. exists n'. split; [exact L'|].
  rewrite <- E. cbn [app find_vars_fuel]. replace (c =? DOLLAR) with false.
  2:{ symmetry. apply Z.eqb_neq. intros ->. apply P. now left. }
  cbn [andb]. destruct (s ++ rest) as [| x l] eqn:Q; [now destruct n|]. reflexivity.
Qed.
Lemma find_render ts : cut ts -> forall n, (length (render [DOLLAR] ts) <= n)%nat ->
  find_vars_fuel n (render [DOLLAR] ts) = map (cons DOLLAR) (refs ts).
Proof.
  induction ts as [| [s | r] ts IH]; intros C n L; cbn [cut] in C.
  - now destruct n.
  - change (render [DOLLAR] (Lit s :: ts)) with (s ++ render [DOLLAR] ts) in *. destruct C as [P C].
    destruct (find_plain s (render [DOLLAR] ts) P n L) as (n' & L' & ->). now apply IH.
  - change (render [DOLLAR] (Ref r :: ts)) with (DOLLAR :: r ++ render [DOLLAR] ts) in *.
    destruct C as ((t & d & -> & I & D & _) & H & C). cbn [app length] in *.
    destruct n as [| n]; [lia|]. cbn [find_vars_fuel]. change (DOLLAR =? DOLLAR) with true.
    replace (is_vtype t) with true by (unfold is_vtype; cbn [In] in I; lia). cbn [andb].
    rewrite digits_span' by auto. destruct (digits_head d [] D) as (c & d' & E & _). rewrite E at 1. cbv iota.
    cbn [refs flat_map app map]. f_equal. apply IH; [exact C|]. rewrite app_length in L. lia.
Qed.

(** ** Replacing one variable *)
Lemma vshape_plain r : vshape r -> plain r.
Proof. intros (t & d & -> & I & [_ D] & _) [E | C]; [subst t; unfold DOLLAR in *; cbn [In] in I; lia|]. rewrite Forall_forall in D. specialize (D _ C). unfold DOLLAR in D. lia. Qed.
Lemma cut_lits ts : cut ts -> plain_lits ts.
Proof.
  induction ts as [| [s | r] ts IH]; intros C x H; cbn [cut] in C; [destruct H | |].
  - destruct H as [E | H]; [injection E as <-; tauto | apply IH; tauto].
  - destruct H as [E | H]; [discriminate | apply IH; tauto].
Qed.
Lemma head_plain s ts : match s ++ render [DOLLAR] ts with c :: _ => True | [] => True end.
Proof. destruct (s ++ _); exact I. Qed.
Lemma replace_cut k v ts : vshape k -> cut ts -> (forall r, In r (refs ts) -> prefix k r -> r = k) ->
  replace_from (DOLLAR :: k) v (render [DOLLAR] ts) 0 = render [DOLLAR] (map (subst1 k v) ts).
Proof.
  intros K. induction ts as [| [s | r] ts IH]; intros C H; cbn [cut] in C; [reflexivity | |].
  - change (render [DOLLAR] (map (subst1 k v) (Lit s :: ts))) with (s ++ render [DOLLAR] (map (subst1 k v) ts)).
    change (render [DOLLAR] (Lit s :: ts)) with (s ++ render [DOLLAR] ts). destruct C as [P C].
    change (DOLLAR :: k) with ([DOLLAR] ++ k). rewrite lit_step; [| now left | exact P | now apply cut_lits].
    f_equal. now apply IH.
  - destruct C as (V & HO & C).
    assert (IH' : replace_from (DOLLAR :: k) v (render [DOLLAR] ts) 0 = render [DOLLAR] (map (subst1 k v) ts)) by (apply IH; [exact C | intros; apply H; [now right | assumption]]).
    change (render [DOLLAR] (Ref r :: ts)) with ([DOLLAR] ++ r ++ render [DOLLAR] ts).
    change (DOLLAR :: k) with ([DOLLAR] ++ k) in *. cbn [map subst1]. destruct (text_eqb_spec r k) as [-> | NE].
    + rewrite ref_same by now left. rewrite IH'. reflexivity.
    + assert (E : starts ([DOLLAR] ++ k) ([DOLLAR] ++ r ++ render [DOLLAR] ts) = false).
      { rewrite starts_app. destruct (starts k (r ++ render [DOLLAR] ts)) eqn:E; [|reflexivity]. exfalso. apply starts_prefix in E.
        destruct (prefix_app_or _ _ _ E) as [Q | Q]; [apply NE; apply H; [now left | exact Q]|].
        destruct Q as [x Q]. destruct x as [| c x]; [rewrite app_nil_r in Q; congruence|].
        rewrite Q in E. destruct E as [y Y]. rewrite <- app_assoc in Y. apply app_inv_head in Y. cbn [app] in Y. rewrite Y in HO. cbn in HO.
        destruct K as (t & d & -> & _ & [_ D] & _). destruct V as (t' & d' & -> & _). cbn [app] in Q. injection Q as _ Q.
        rewrite Forall_forall in D. assert (48 <= c <= 57) by (apply D; rewrite Q; apply in_or_app; right; now left).
        unfold is_digit in HO. lia. }
      change (render [DOLLAR] (Ref r :: map (subst1 k v) ts)) with (DOLLAR :: r ++ render [DOLLAR] (map (subst1 k v) ts)).
      cbn [app] in *. cbn [replace_from]. rewrite E. f_equal.
      pose proof (lit_step [DOLLAR] k v r ts (or_introl eq_refl) (vshape_plain r V) (cut_lits ts C)) as LS. cbn [app] in LS. rewrite LS. now rewrite IH'.
Qed.
Lemma head_subst k c v ts : is_digit c = false -> head_ok (render [DOLLAR] ts) -> head_ok (render [DOLLAR] (map (subst1 k (c :: v)) ts)).
Proof.
  intros D. induction ts as [| [s | r] ts IH]; cbn [map subst1]; [auto | |].
  - destruct s as [| x s]; [exact IH | auto].
  - intros _. destruct (text_eqb r k); [exact D | reflexivity].
Qed.
Lemma cut_subst k c v ts : is_digit c = false -> plain (c :: v) -> cut ts -> cut (map (subst1 k (c :: v)) ts).
Proof.
  intros D P. induction ts as [| [s | r] ts IH]; intros C; cbn [map subst1 cut] in *; [auto | tauto |].
  destruct (text_eqb r k); cbn [cut]; [tauto|]. destruct C as (A & B & C). split; [exact A|]. split; [now apply head_subst | auto].
Qed.

(** ** Order *)
Lemma ltb_prefix a b : prefix a b -> a <> b -> text_ltb a b = true.
Proof.
  revert b; induction a as [| x a IH]; intros b [l ->] N; cbn [app text_ltb] in *.
  - destruct l; [congruence | reflexivity].
  - rewrite Z.eqb_refl. cbn [andb]. rewrite IH; [lia | now exists l | congruence].
Qed.
Lemma ltb_trans a : forall b c, text_ltb a b = true -> text_ltb b c = true -> text_ltb a c = true.
Proof.
  induction a as [| x a IH]; intros [| y b] [| z c] H1 H2; cbn [text_ltb] in *; try discriminate; try reflexivity.
  destruct (Z.ltb_spec x y), (Z.ltb_spec y z), (Z.eqb_spec x y), (Z.eqb_spec y z); cbn [orb andb] in *; try discriminate; try lia.
  rewrite (IH b c) by assumption. lia.
Qed.
Lemma ltb_irrefl a : text_ltb a a = false.
Proof. induction a as [| x a IH]; [reflexivity|]. cbn [text_ltb]. rewrite IH. lia. Qed.
Lemma ltb_total a : forall b, text_ltb a b = false -> a = b \/ text_ltb b a = true.
Proof.
  induction a as [| x a IH]; intros [| y b] H; cbn [text_ltb] in *; auto; try discriminate.
  destruct (Z.ltb_spec x y); [discriminate|]. destruct (Z.eqb_spec x y).
  - subst. cbn [orb andb] in H. destruct (IH b H) as [-> | Q]; [now left | right]. rewrite Z.eqb_refl, Q. lia.
  - right. lia.
Qed.
Fixpoint desc (l : list text) : Prop := match l with [] => True | v :: l' => (forall r, In r l' -> text_ltb v r = false) /\ desc l' end.
Lemma insert_in v l r : In r (insert_desc v l) <-> r = v \/ In r l.
Proof. induction l as [| x l IH]; cbn [insert_desc In]; [intuition|]. destruct (text_ltb x v); cbn [In]; [intuition | rewrite IH; intuition]. Qed.
Lemma insert_sorted v l : desc l -> desc (insert_desc v l).
Proof.
  induction l as [| x l IH]; cbn [insert_desc desc]; [cbn; tauto|]. intros [A B]. destruct (text_ltb x v) eqn:E; cbn [desc].
  - split; [|auto]. intros r [<- | R].
    + destruct (text_ltb v x) eqn:Q; [|reflexivity]. pose proof (ltb_trans _ _ _ E Q). rewrite ltb_irrefl in H. discriminate.
    + destruct (text_ltb v r) eqn:Q; [|reflexivity]. specialize (A r R). pose proof (ltb_trans _ _ _ E Q). congruence.
  - split; [|auto]. intros r R. apply insert_in in R as [-> | R]; auto.
Qed.
Lemma sort_ok l : desc (sort_desc l) /\ forall r, In r (sort_desc l) <-> In r l.
Proof.
  induction l as [| v l [A B]]; cbn [sort_desc fold_right]; [cbn; tauto|]. fold (sort_desc l). split; [now apply insert_sorted|].
  intros r. rewrite insert_in, B. cbn [In]. intuition.
Qed.

(** ** All variables *)
Definition cvar (r : text) : text := match var_n (DOLLAR :: r) with Some c => c | None => [] end.
Lemma cvar_ok r : vshape r -> var_n (DOLLAR :: r) = Some (cvar r) /\ c_text r (cvar r) /\ plain (cvar r) /\ exists v, cvar r = 40 :: v.
Proof.
  intros (t & d & -> & I & D & P). unfold cvar, var_n. destruct (dec_ok (int_of d - 1)) as [DD DE]; [lia|].
  assert (PL : forall a b, plain a -> plain b -> plain (a ++ dec (int_of d - 1) ++ b)).
  { intros a b A B C. apply in_app_or in C as [C | C]; [now apply A|]. apply in_app_or in C as [C | C]; [| now apply B].
    destruct DD as [_ DD]. rewrite Forall_forall in DD. specialize (DD _ C). unfold DOLLAR in DD. lia. }
  assert (P1 : plain (T "((float)(args[")) by (intros C; vm_compute in C; lia).
  assert (P2 : plain (T "((int)(args[")) by (intros C; vm_compute in C; lia).
  assert (P3 : plain (T "]))")) by (intros C; vm_compute in C; lia).
  destruct I as [<- | [<- | []]].
  - change (102 =? 102) with true. cbv iota. split; [reflexivity|]. split; [|split; [now apply PL | eexists; reflexivity]].
    exists 102, d, (dec (int_of d - 1)). split; [reflexivity|]. split; [exact DD|]. split; [exact DE|]. reflexivity.
  - change (105 =? 102) with false. change (105 =? 105) with true. cbv iota. split; [reflexivity|]. split; [|split; [now apply PL | eexists; reflexivity]].
    exists 105, d, (dec (int_of d - 1)). split; [reflexivity|]. split; [exact DD|]. split; [exact DE|]. reflexivity.
Qed.
Lemma cut_refs ts r : cut ts -> In r (refs ts) -> vshape r.
Proof.
  induction ts as [| [s | x] ts IH]; intros C I; cbn [cut] in C; [destruct I | apply IH; tauto |].
  destruct I as [<- | I]; [tauto | apply IH; tauto].
Qed.
Lemma bind_all_ok l : forall ts, cut ts -> desc (map (cons DOLLAR) l) -> (forall r, In r l -> vshape r) -> (forall r, In r (refs ts) -> In r l) ->
  bind_all (map (cons DOLLAR) l) (render [DOLLAR] ts) = substituted (fun r => Some (cvar r)) ts.
Proof.
  induction l as [| v l IH]; intros ts C S V R; cbn [map bind_all].
  - symmetry. apply substituted_norefs. destruct (refs ts) as [| r x]; [reflexivity|]. destruct (R r (or_introl eq_refl)).
  - destruct (cvar_ok v (V v (or_introl eq_refl))) as (E & _ & P & (c & CV)). rewrite E. unfold replace.
    cbn [map desc] in S. destruct S as [S1 S2].
    rewrite replace_cut; [| apply V; now left | exact C |].
    + rewrite IH.
      * apply substituted_subst. reflexivity.
      * rewrite CV in *. apply cut_subst; [reflexivity | exact P | exact C].
      * exact S2.
      * intros; apply V; now right.
      * intros r I. apply refs_subst in I as [I NE]. destruct (R r I) as [-> | I']; [congruence | exact I'].
    + intros r I PF. destruct (R r I) as [<- | I']; [reflexivity|].
      destruct (text_eqb_spec r v) as [-> | NE]; [reflexivity|]. exfalso.
      assert (text_ltb (DOLLAR :: v) (DOLLAR :: r) = true).
      { apply ltb_prefix; [destruct PF as [x ->]; now exists x | congruence]. }
      rewrite S1 in H; [discriminate | now apply in_map].
Qed.
Lemma is_fis_shape r : vshape r -> is_fis (DOLLAR :: r) = true.
Proof. intros (t & d & -> & I & _). unfold is_fis. cbn [In] in I. lia. Qed.
Lemma sort_map l : exists l', sort_desc (map (cons DOLLAR) l) = map (cons DOLLAR) l'.
Proof.
  induction l as [| v l [l' E]]; [now exists []|]. cbn [map sort_desc fold_right]. fold (sort_desc (map (cons DOLLAR) l)). rewrite E.
  clear. induction l' as [| x l' [m IH]]; cbn [map insert_desc]; [now exists [v]|].
  destruct (text_ltb (DOLLAR :: x) (DOLLAR :: v)); [now exists (v :: x :: l') | exists (x :: m); cbn [map]; now rewrite IH].
Qed.
Lemma bind_expr_ok ts : cut_ok ts -> bind_expr (render [DOLLAR] ts) = substituted (fun r => Some (cvar r)) ts.
Proof.
  intros C. apply cut_of in C. unfold bind_expr, find_vars. rewrite find_render by auto.
  rewrite filter_true_id.
  2:{ intros x I. apply in_map_iff in I as (r & <- & I). apply is_fis_shape. eapply cut_refs; eauto. }
  destruct (sort_ok (map (cons DOLLAR) (refs ts))) as [S1 S2]. destruct (sort_map (refs ts)) as [l E]. rewrite E in *.
  assert (EQ : forall r, In r l <-> In r (refs ts)).
  { intros r. assert (In (DOLLAR :: r) (map (cons DOLLAR) l) <-> In r l).
    { rewrite in_map_iff. split; [intros (x & Q & H); injection Q as ->; exact H | intros H; eauto]. }
    assert (In (DOLLAR :: r) (map (cons DOLLAR) (refs ts)) <-> In r (refs ts)).
    { rewrite in_map_iff. split; [intros (x & Q & H'); injection Q as ->; exact H' | intros H'; eauto]. }
    rewrite <- H, <- H0. apply S2. }
  apply bind_all_ok; auto; intros r I; [apply (cut_refs ts); auto; now apply EQ | now apply EQ].
Qed.

(** ** Calls *)
Lemma dict_add_new d k v : ~ In k (map fst d) -> dict_add d k v = d ++ [(k, v)].
Proof.
  induction d as [| [k' v'] d IH]; intros N; cbn [dict_add app map fst In] in *; [reflexivity|].
  replace (k =? k') with false by (symmetry; apply Z.eqb_neq; intros ->; tauto). rewrite IH by tauto. reflexivity.
Qed.
Lemma emit_ok objs : forall d calls d', NoDup (map fst d ++ objs) -> (forall k v, In (k, v) d -> v = k) -> emit_exprs objs d = (calls, d') ->
  exists e, d' = d ++ e /\ map snd e = objs /\ map (fun c => (fst c, nth_error (map snd d') (snd c))) calls = map (fun o => (o, Some o)) objs.
Proof.
  induction objs as [| o objs IH]; intros d calls d' N V E; cbn [emit_exprs] in E.
  - injection E as <- <-. exists []. now rewrite app_nil_r.
  - destruct (emit_exprs objs (dict_add d o o)) as [c1 d1] eqn:Q. injection E as <- <-.
    assert (NI : ~ In o (map fst d)).
    { intros I. apply NoDup_remove_2 in N. apply N. apply in_or_app. now left. }
    rewrite dict_add_new in Q by exact NI.
    destruct (IH (d ++ [(o, o)]) c1 d1) as (e & E1 & E2 & E3); auto.
    { rewrite map_app. cbn [map fst]. rewrite <- app_assoc. exact N. }
    { intros k v I. apply in_app_or in I as [I | [I | []]]; [auto | congruence]. }
    exists ((o, o) :: e). rewrite <- app_assoc in E1. cbn [app] in E1. split; [exact E1|]. split; [cbn [map snd]; now rewrite E2|].
    cbn [map fst snd]. rewrite E3. f_equal. f_equal. rewrite E1, map_app. rewrite nth_error_app2; rewrite map_length; [|lia].
    now rewrite Nat.sub_diag.
Qed.
