(** The arguments a file declares. *)
From Verif Require Import ParseModel ParseSpec ParseProofs ParseProofs2 ParseProofs3 ParseProofs4 ParseProofs5 ParseProofs6.
From Coq Require Import Lia String ZifyBool FinFun.
Local Open Scope list_scope.
Local Open Scope Z_scope.

Lemma written_id w : (forall c, In c w -> c <> 44 /\ c <> 59 /\ c <> 92 /\ c <> 32 /\ c <> 36) -> written w = w.
Proof.
  induction w as [|c w IH]; intro H; [reflexivity|]. rewrite written_cons, IH by (intros; apply H; right; auto).
  destruct (H c ltac:(left; auto)) as (A & B & C & D & E). unfold bs, dollar_digit.
  replace (c =? 44) with false by lia. replace (c =? 59) with false by lia. replace (c =? 92) with false by lia. replace (c =? 32) with false by lia.
  replace (c =? 36) with false by lia. reflexivity.
Qed.
Lemma written_int n : written (int_text n) = int_text n.
Proof. apply written_id. intros c I. pose proof (int_text_chars n) as F. rewrite Forall_forall in F. apply F in I. lia. Qed.

(** ** Lines of an unbroken file *)
Lemma put_unbroken l : forall k, put_words (fun _ => false) k l = join (T " ") l.
Proof.
  induction l as [|w l IH]; intro k; [reflexivity|]. destruct l as [|w' l]; [reflexivity|]. rewrite put_cons, join_cons by discriminate. rewrite IH. reflexivity.
Qed.
Lemma text_nl r : rec_ok r -> ~ In NL (rec_text r ++ [59]).
Proof.
  intros H I. apply in_app_iff in I as [I|[I|[]]]; [|discriminate]. unfold rec_text in I. rewrite <- (put_unbroken _ 0) in I.
  destruct (rec_fwords r H) as (_ & F & _). rewrite put_unbroken in I. rewrite Forall_forall in F.
  assert (G : forall l, Forall fword l -> ~ In NL (join (T " ") l)).
  { clear. intros l F. induction F as [|w l W _ IH]; [intros []|]. destruct l as [|w' l]; [apply W|]. rewrite join_cons by discriminate. intro I.
    apply in_app_iff in I as [I|I]; [destruct W as (_ & W & _); auto|]. apply in_app_iff in I as [[I|[]]|I]; [discriminate|auto]. }
  apply (G (rec_words r)); auto. apply Forall_forall. auto.
Qed.
Lemma unbroken_lines l : Forall rec_ok l -> forall i, lines_from [] (put_recs unbroken i l) = map (fun r => rec_text r ++ [59]) l.
Proof.
  induction 1 as [|r l R _ IH]; intro i; [reflexivity|]. cbn [put_recs map]. change (unbroken i) with (fun _ : nat => false). rewrite put_unbroken. fold (rec_text r).
  change ([59; 10] ++ ?x) with ([59] ++ 10 :: x). rewrite app_assoc. rewrite lines_word by (apply text_nl; auto). cbn [app lines_from].
  change (10 =? NL) with true. cbv iota. rewrite IH. reflexivity.
Qed.
Lemma unbroken_file l : Forall rec_ok l -> file_lines (pd_file unbroken l) = map (fun r => rec_text r ++ [59]) l.
Proof.
  intro F. unfold file_lines, pd_file. rewrite universal_id; [apply unbroken_lines; auto|]. apply put_recs_cr. revert F. apply Forall_impl. apply rec_fwords.
Qed.

(** ** Searching *)
Lemma contains_split p s : contains p s = true -> exists a b, s = a ++ p ++ b.
Proof.
  induction s as [|c s IH]; cbn [contains]; intro H.
  - apply orb_prop in H as [H|H]; [|discriminate]. destruct (starts_split _ _ H) as [r E]. exists [], r. exact E.
  - apply orb_prop in H as [H|H]; [destruct (starts_split _ _ H) as [r E]; exists [], r; exact E|]. destruct (IH H) as (a & b & ->). exists (c :: a), b. reflexivity.
Qed.
Lemma contains_app p a b : contains p (a ++ p ++ b) = true.
Proof.
  induction a as [|c a IH]; cbn [app].
  - destruct (p ++ b) as [|c s] eqn:E; cbn [contains]; rewrite <- E, starts_app; reflexivity.
  - cbn [contains]. rewrite IH. apply orb_true_r.
Qed.
Lemma contains_semi s : contains (T "@hv_arg") (s ++ [59]) = contains (T "@hv_arg") s.
Proof.
  destruct (contains (T "@hv_arg") s) eqn:E.
  - destruct (contains_split _ _ E) as (a & b & ->). rewrite <- !app_assoc. apply contains_app.
  - destruct (contains (T "@hv_arg") (s ++ [59])) eqn:F; auto. destruct (contains_split _ _ F) as (a & b & G). exfalso.
    destruct (rev b) as [|c b'] eqn:B.
    + apply (f_equal (@rev Z)) in B. rewrite rev_involutive in B. cbn in B. subst b. rewrite app_nil_r in G. apply (f_equal (@rev Z)) in G.
      rewrite !rev_app_distr in G. cbn in G. discriminate.
    + apply (f_equal (@rev Z)) in B. rewrite rev_involutive in B. cbn [rev] in B. subst b. rewrite !app_assoc in G. apply snoc_inj in G as [G _]. subst s.
      rewrite <- app_assoc, contains_app in E. discriminate.
Qed.
Lemma no_at s : ~ In 64 s -> contains (T "@hv_arg") s = false.
Proof.
  intro H. destruct (contains (T "@hv_arg") s) eqn:E; auto. destruct (contains_split _ _ E) as (a & b & ->). exfalso. apply H. apply in_app_iff. right. left. reflexivity.
Qed.
Lemma rstrip_semi s : last s 0 <> 59 -> last s 0 <> CR -> last s 0 <> NL -> rstrip_line (s ++ [59]) = s.
Proof.
  intros A B C. unfold rstrip_line. rewrite rev_app_distr. cbn [rev app]. change (59 =? 59) with true. cbn [orb].
  destruct (rev s) as [|c r] eqn:E.
  - apply (f_equal (@rev Z)) in E. rewrite rev_involutive in E. subst. reflexivity.
  - assert (S : s = rev r ++ [c]) by (rewrite <- (rev_involutive s), E; reflexivity). rewrite S, last_app in A, B, C.
    replace ((c =? 59) || (c =? CR) || (c =? NL)) with false by lia. rewrite <- E. apply rev_involutive.
Qed.

(** ** Canvas records *)
Definition canvas_key (p : Z * Z) : text := rec_text (sub_rec (fst p) (snd p)).
Lemma key_text p : canvas_key p = T "#N canvas " ++ int_text (fst p) ++ T " " ++ int_text (snd p) ++ T " 450 300 sub 0".
Proof. destruct p as [x y]. unfold canvas_key, rec_text, rec_words, sub_rec, plain_rec. cbn [r_atoms r_width map fst snd]. rewrite !written_int. reflexivity. Qed.
Lemma int_solid n : solid (int_text n).
Proof.
  split; [apply int_text_ne|]. intros c I. pose proof (int_text_chars n) as F. rewrite Forall_forall in F. apply F in I. unfold is_blank. lia.
Qed.
Lemma int_text_inj a b : int_text a = int_text b -> a = b.
Proof. intro H. apply (f_equal read_int) in H. rewrite !read_int_text in H. congruence. Qed.
Ltac lit_solid := split; [discriminate|]; let I := fresh in intros ? I; cbn in I; repeat (destruct I as [<-|I]; [reflexivity|]); destruct I.
Lemma key_words p : words (canvas_key p) = [T "#N"; T "canvas"; int_text (fst p); int_text (snd p); T "450"; T "300"; T "sub"; T "0"].
Proof.
  destruct p as [x y]. unfold canvas_key, rec_text, rec_words, sub_rec, plain_rec. cbn [r_atoms r_width map fst snd]. rewrite !written_int. apply words_join.
  constructor; [lit_solid|]. constructor; [lit_solid|]. constructor; [apply int_solid|]. constructor; [apply int_solid|]. repeat (constructor; [lit_solid|]). constructor.
Qed.
Lemma key_inj p q : canvas_key p = canvas_key q -> p = q.
Proof.
  intro H. apply (f_equal words) in H. rewrite !key_words in H. injection H as A B. apply int_text_inj in A, B. destruct p, q. cbn in *. congruence.
Qed.
Definition root_key : text := rec_text canvas_rec.
Lemma key_root p : canvas_key p <> root_key.
Proof. intro H. apply (f_equal words) in H. rewrite key_words in H. change (words root_key) with [T "#N"; T "canvas"; T "0"; T "0"; T "450"; T "300"; T "12"] in H. discriminate. Qed.

Lemma put_keys {A} k (v : A) d : incl (map fst d) (map fst (put_key k v d)) /\ In k (map fst (put_key k v d)).
Proof.
  induction d as [|[x w] d [I J]]; [split; [intros a []|left; reflexivity]|]. cbn. destruct (text_eqb k x) eqn:E.
  - apply text_eqb_eq in E. subst. split; [apply incl_refl|left; reflexivity].
  - split; [|right; exact J]. intros a [<-|K]; [left|right; apply I]; auto.
Qed.

(** ** The automaton *)
Definition no_arg (t : thing) : Prop := forall r, In r (thing_recs t) -> contains (T "@hv_arg") (rec_text r) = false.
Lemma skip_line d cur depth li ls : starts (T "#N canvas") li = false -> contains (T "@hv_arg") li = false -> starts (T "#X restore") li = false ->
  hv_args d cur depth (li :: ls) = hv_args d cur depth ls.
Proof. intros A B C. cbn [hv_args]. rewrite A, B, C. reflexivity. Qed.
Lemma skip_recs l : (forall r, In r l -> starts (T "#N canvas") (rec_text r ++ [59]) = false /\ starts (T "#X restore") (rec_text r ++ [59]) = false /\ contains (T "@hv_arg") (rec_text r) = false) ->
  forall d cur depth ls, hv_args d cur depth (map (fun r => rec_text r ++ [59]) l ++ ls) = hv_args d cur depth ls.
Proof.
  induction l as [|r l IH]; intros H d cur depth ls; [reflexivity|]. cbn [map app]. destruct (H r ltac:(left; auto)) as (A & B & C).
  rewrite skip_line; auto; [|rewrite contains_semi; exact C]. apply IH. intros; apply H; right; auto.
Qed.
Lemma starts_first p w s : starts p (w ++ s) = true -> (List.length p <= List.length w)%nat -> starts p w = true.
Proof.
  revert w. induction p as [|c p IH]; intros w H L; [reflexivity|]. destruct w as [|d w]; [cbn in L; lia|]. cbn in *. apply andb_prop in H as [-> H]. apply IH; [auto|lia].
Qed.
(** The text of a record that begins with "#X" and another word. *)
Lemma xy_text k x y ws w : written (T k) = T k -> exists s, rec_text (mkRec (at_xy k x y ws) w) = T "#X " ++ T k ++ T " " ++ s.
Proof.
  intro K. unfold rec_text, rec_words, at_xy. cbn [r_atoms r_width map app]. rewrite K, !written_int.
  assert (E : exists l, l <> [] /\ (match w with None => T "#X" :: T k :: int_text x :: int_text y :: map written ws
     | Some d => last_comma (T "#X" :: T k :: int_text x :: int_text y :: map written ws) ++ [T "f"; d] end) = T "#X" :: T k :: l).
  { destruct w as [d|].
    - exists (last_comma (int_text x :: int_text y :: map written ws) ++ [T "f"; d]). split; [destruct (last_comma _); discriminate|]. reflexivity.
    - eexists. split; [|reflexivity]. discriminate. }
  destruct E as (l & N & E). exists (join (T " ") l). change (written (T "#X")) with (T "#X"). 
  transitivity (join (T " ") (T "#X" :: T k :: l)); [rewrite <- E; destruct w; reflexivity|].
  rewrite join_cons by discriminate. rewrite join_cons by auto. reflexivity.
Qed.
Lemma flat_starts t r : match t with Sub _ _ _ _ | Table _ _ _ _ => False | _ => True end -> In r (thing_recs t) ->
  starts (T "#N canvas") (rec_text r ++ [59]) = false /\ starts (T "#X restore") (rec_text r ++ [59]) = false.
Proof.
  destruct t as [x y ws|x y ws w|x y l rm|x y n c|x y n ch]; intros H I; try (destruct H); destruct I as [<-|[]]; unfold plain_rec.
  - destruct (xy_text "text" x y ws None eq_refl) as [s ->]. split; reflexivity.
  - destruct (xy_text "obj" x y ws w eq_refl) as [s ->]. split; reflexivity.
  - destruct (xy_text "msg" x y (box_atoms l rm) None eq_refl) as [s ->]. split; reflexivity.
Qed.
Lemma wire_text w : exists s, rec_text (wire_rec w) = T "#X connect " ++ s /\ ~ In 64 s.
Proof.
  destruct w as [[[a o] b] i]. unfold rec_text, rec_words, wire_rec, plain_rec. cbn [r_atoms r_width map]. rewrite !written_int.
  exists (int_text a ++ T " " ++ int_text o ++ T " " ++ int_text b ++ T " " ++ int_text i). split; [reflexivity|]. intro I.
  assert (G : forall n, ~ In 64 (int_text n)) by (intros n J; pose proof (int_text_chars n) as F; rewrite Forall_forall in F; apply F in J; lia).
  repeat (apply in_app_iff in I as [I|I]; [first [apply G in I; exact I|destruct I as [I|[]]; discriminate]|]). apply G in I. exact I.
Qed.
Lemma wires_skip ws d cur depth ls : hv_args d cur depth (map (fun r => rec_text r ++ [59]) (map wire_rec ws) ++ ls) = hv_args d cur depth ls.
Proof.
  apply skip_recs. intros r I. apply in_map_iff in I as (w & <- & _). destruct (wire_text w) as (s & -> & N). split; [reflexivity|]. split; [reflexivity|].
  apply no_at. intro I. apply in_app_iff in I as [I|I]; [|auto]. cbn in I. repeat (destruct I as [I|I]; [discriminate|]). exact I.
Qed.
Lemma open_canvas p d cur depth ls : hv_args d cur depth ((canvas_key p ++ [59]) :: ls) = hv_args (put_key (canvas_key p) [] d) (Some (canvas_key p)) (depth + 1) ls.
Proof.
  cbn [hv_args]. assert (S : starts (T "#N canvas") (canvas_key p ++ [59]) = true) by (rewrite key_text; reflexivity). rewrite S.
  assert (L : last (canvas_key p) 0 = 48). { rewrite key_text, !app_assoc. change (T " 450 300 sub 0") with (T " 450 300 sub " ++ [48]). rewrite app_assoc. apply last_app. }
  rewrite rstrip_semi by (rewrite L; discriminate). reflexivity.
Qed.
Definition hv_inv (root : text) (A : list text) (path : list (Z * Z)) (d : list (text * list text)) : Prop :=
  exists d', d = (root, A) :: d' /\ incl (map canvas_key path) (map fst d') /\ NoDup path.
Lemma key_at_some {A} (d : list (text * A)) i : (0 <= i < zlen d) -> exists k, key_at d i = Some k.
Proof.
  intro H. unfold key_at. replace (i <? 0) with false by lia. cbn. replace ((0 <=? i) && (i <? zlen d)) with true by lia.
  destruct (nth_error d (Z.to_nat i)) as [[k v]|] eqn:E; [exists k; reflexivity|]. apply nth_error_None in E. unfold zlen in *. lia.
Qed.
Lemma close_canvas x y ws A path p d cur ls : hv_inv root_key A (p :: path) d -> contains (T "@hv_arg") (rec_text (plain_rec (at_xy "restore" x y ws))) = false ->
  exists k, hv_args d cur (zlen path + 1) ((rec_text (plain_rec (at_xy "restore" x y ws)) ++ [59]) :: ls) = hv_args d (Some k) (zlen path) ls /\ (path = [] -> k = root_key).
Proof.
  intros (d' & -> & I & N) C. assert (L : zlen path + 1 <= zlen d').
  { assert (M : NoDup (map canvas_key (p :: path))) by (apply FinFun.Injective_map_NoDup; auto; intros a b; apply key_inj).
    pose proof (NoDup_incl_length M I) as K. rewrite !map_length in K. cbn [List.length] in K. unfold zlen. lia. }
  cbn [hv_args]. unfold plain_rec in *. destruct (xy_text "restore" x y ws None eq_refl) as [s E]. rewrite contains_semi, C. rewrite E.
  change (starts (T "#N canvas") _) with false. change (starts (T "#X restore") _) with true. cbv iota.
  replace (zlen path + 1 - 1) with (zlen path) by lia.
  destruct (key_at_some ((root_key, A) :: d') (zlen path)) as [k K]; [unfold zlen in *; cbn [List.length]; lia|]. rewrite K. exists k. split; [reflexivity|].
  intros ->. assert (K0 : key_at ((root_key, A) :: d') 0 = Some root_key).
  { unfold key_at. change (0 <? 0) with false. cbv iota. replace ((0 <=? 0) && (0 <? zlen ((root_key, A) :: d'))) with true; [reflexivity|]. unfold zlen. cbn [List.length]. lia. }
  change (zlen []) with 0 in K. rewrite K0 in K. injection K as <-. reflexivity.
Qed.
Lemma open_inv A path p d : ~ In p path -> hv_inv root_key A path d -> hv_inv root_key A (p :: path) (put_key (canvas_key p) [] d).
Proof.
  intros P (d' & -> & I & N). cbn [put_key]. rewrite text_eqb_neq by apply key_root. exists (put_key (canvas_key p) [] d'). split; [reflexivity|].
  destruct (put_keys (canvas_key p) (@nil text) d') as [J K]. split; [|constructor; auto]. cbn [map]. intros a [<-|H]; [exact K|]. apply J, I, H.
Qed.
Lemma inv_tail A p path d : hv_inv root_key A (p :: path) d -> hv_inv root_key A path d.
Proof. intros (d' & -> & I & N). exists d'. split; [reflexivity|]. split; [intros a H; apply I; right; exact H|inversion N; auto]. Qed.
Definition hv_steps (t : thing) : Prop := forall A path d cur ls, distinct_inside path t -> no_arg t -> hv_inv root_key A path d ->
  exists d2 cur2, hv_args d cur (zlen path) (map (fun r => rec_text r ++ [59]) (thing_recs t) ++ ls) = hv_args d2 cur2 (zlen path) ls /\
  hv_inv root_key A path d2 /\ (path = [] -> cur = Some root_key -> cur2 = Some root_key).
Lemma hv_things ts : Forall hv_steps ts -> forall A path d cur ls, Forall (distinct_inside path) ts -> Forall no_arg ts -> hv_inv root_key A path d ->
  exists d2 cur2, hv_args d cur (zlen path) (map (fun r => rec_text r ++ [59]) (flat_map thing_recs ts) ++ ls) = hv_args d2 cur2 (zlen path) ls /\ hv_inv root_key A path d2.
Proof.
  induction 1 as [|t ts S _ IH]; intros A path d cur ls D N I; [exists d, cur; auto|]. inversion D; subst. inversion N; subst. cbn [flat_map]. rewrite map_app, <- app_assoc.
  destruct (S A path d cur (map (fun r => rec_text r ++ [59]) (flat_map thing_recs ts) ++ ls)) as (d2 & cur2 & E & I2 & _); auto. rewrite E. apply (IH A path); auto.
Qed.
Lemma distinct_sub path x y n ts ws : distinct_inside path (Sub x y n (mkSheet ts ws)) <-> ~ In (x, y) path /\ Forall (distinct_inside ((x, y) :: path)) ts.
Proof.
  cbn [distinct_inside]. assert (E : forall q, (fix all l := match l with [] => True | t :: l' => distinct_inside q t /\ all l' end) ts <-> Forall (distinct_inside q) ts).
  { intro q. induction ts as [|t ts IH]; [split; constructor|]. split.
    - intros [H K]. constructor; auto. apply IH. auto.
    - intro H. inversion H; subst. split; auto. apply IH. auto. }
  rewrite E. tauto.
Qed.
Lemma hv_thing t : hv_steps t.
Proof.
  induction t as [x y ws|x y ws w|x y l r|x y n ts ws IH|x y n ch] using thing_rect'; intros A path d cur ls D N I.
  - exists d, cur. split; [|auto]. apply skip_recs. intros r R. destruct (flat_starts (Comment x y ws) _ Logic.I R). auto.
  - exists d, cur. split; [|auto]. apply skip_recs. intros r R. destruct (flat_starts (Obj x y ws w) _ Logic.I R). auto.
  - exists d, cur. split; [|auto]. apply skip_recs. intros r0 R. destruct (flat_starts (Msg x y l r) _ Logic.I R). auto.
  - apply distinct_sub in D as [P D]. unfold no_arg in N. rewrite thing_recs_sub in *. cbn [map app]. change (rec_text (sub_rec x y)) with (canvas_key (x, y)).
    rewrite open_canvas. rewrite !map_app, <- !app_assoc.
    assert (Z1 : zlen path + 1 = zlen ((x, y) :: path)) by (unfold zlen; cbn [List.length]; lia). rewrite Z1.
    destruct (hv_things ts IH A ((x, y) :: path) (put_key (canvas_key (x, y)) [] d) (Some (canvas_key (x, y))) (map (fun r => rec_text r ++ [59]) (map wire_rec ws) ++ map (fun r => rec_text r ++ [59]) [plain_rec (at_xy "restore" x y (T "pd" :: n))] ++ ls)) as (d2 & cur2 & E & I2); auto.
    { rewrite Forall_forall. intros t T1 r R. apply N. right. apply in_app_iff. left. apply in_flat_map. eauto. }
    { apply open_inv; auto. }
    rewrite E, wires_skip. cbn [map app]. rewrite <- Z1.
    destruct (close_canvas x y (T "pd" :: n) A path (x, y) d2 cur2 ls I2) as (k & C & R).
    { apply N. right. apply in_app_iff. right. apply in_app_iff. right. left. reflexivity. }
    rewrite C. exists d2, (Some k). split; [reflexivity|]. split; [eapply inv_tail; eauto|]. intros Hp _. rewrite R by auto. reflexivity.
  - cbn [distinct_inside] in D. unfold no_arg in N. rewrite thing_recs_table in *. cbn [map app]. change (rec_text (sub_rec x y)) with (canvas_key (x, y)).
    rewrite open_canvas. rewrite map_app.
    assert (Sk : exists init, array_rec n (zlen (List.concat ch)) :: values_recs 0 ch ++ [coords_rec; plain_rec (at_xy "restore" x y [T "graph"])] = init ++ [plain_rec (at_xy "restore" x y [T "graph"])] /\
      forall r, In r init -> starts (T "#N canvas") (rec_text r ++ [59]) = false /\ starts (T "#X restore") (rec_text r ++ [59]) = false).
    { exists (array_rec n (zlen (List.concat ch)) :: values_recs 0 ch ++ [coords_rec]). split; [cbn [app]; rewrite <- app_assoc; reflexivity|].
      intros r [<-|R].
      - unfold rec_text, rec_words, array_rec, plain_rec. cbn [r_atoms r_width map]. rewrite !join_cons by discriminate. split; reflexivity.
      - apply in_app_iff in R as [R|[<-|[]]]; [|split; reflexivity]. clear -R. revert R. generalize 0. induction ch as [|l ch IH]; intros i R; [destruct R|].
        cbn [values_recs] in R. destruct R as [<-|R]; [|eauto]. unfold rec_text, rec_words, plain_rec. cbn [r_atoms r_width map app].
        rewrite join_cons by discriminate. split; reflexivity. }
    destruct Sk as (init & Ei & Si).
    assert (E2 : (rec_text (array_rec n (zlen (List.concat ch))) ++ [59]) :: (map (fun r => rec_text r ++ [59]) (values_recs 0 ch) ++ map (fun r => rec_text r ++ [59]) [coords_rec; plain_rec (at_xy "restore" x y [T "graph"])]) ++ ls =
      map (fun r => rec_text r ++ [59]) init ++ (rec_text (plain_rec (at_xy "restore" x y [T "graph"])) ++ [59]) :: ls).
    { rewrite <- map_app. change (rec_text (array_rec n (zlen (List.concat ch))) ++ [59]) with ((fun r => rec_text r ++ [59]) (array_rec n (zlen (List.concat ch)))).
      rewrite app_comm_cons. rewrite <- (map_cons (fun r => rec_text r ++ [59])). rewrite Ei, map_app, <- app_assoc. reflexivity. }
    rewrite E2. rewrite skip_recs.
    2:{ intros r R. destruct (Si r R). repeat split; auto. apply N. right. rewrite Ei. apply in_app_iff. auto. }
    destruct (close_canvas x y [T "graph"] A path (x, y) (put_key (canvas_key (x, y)) [] d) (Some (canvas_key (x, y))) ls) as (k & C & R).
    { apply open_inv; auto. }
    { apply N. right. rewrite Ei. apply in_app_iff. right. left. reflexivity. }
    rewrite C. eexists _, (Some k). split; [reflexivity|]. split; [eapply inv_tail; apply open_inv; eauto|]. intros Hp _. rewrite R by auto. reflexivity.
Qed.

(** ** The file *)
Definition decl_text x y n name type default (required : bool) : text :=
  rec_text (plain_rec (at_xy "text" x y [T "@hv_arg"; T "$" ++ int_text n; name; type; default; if required then T "true" else T "false"])).
Lemma name_written w : name_ok w -> written w = w.
Proof.
  intros [[_ W] D]. apply written_id. intros c I. destruct (W c I) as (E & A & B & C). repeat split; auto; intros ->; auto; discriminate.
Qed.
Lemma dollar_written n : 0 <= n -> written (T "$" ++ int_text n) = T "\$" ++ int_text n.
Proof.
  intro P. change (T "$" ++ int_text n) with (36 :: int_text n). rewrite written_cons, written_int.
  assert (E : bs 36 (int_text n) = true); [|rewrite E; reflexivity]. unfold bs. cbn [Z.eqb orb]. unfold dollar_digit.
  unfold int_text. replace (n <? 0) with false by lia. pose proof (nat_text_ne n). pose proof (nat_text_chars n) as F. destruct (nat_text n) as [|c s]; [congruence|].
  inversion F; subst. cbn. lia.
Qed.
Definition yesno (b : bool) : text := if b then T "true" else T "false".
Lemma decl_join x y n name type default req : 0 <= n -> name_ok name -> name_ok type -> name_ok default ->
  decl_text x y n name type default req = join (T " ") [T "#X"; T "text"; int_text x; int_text y; T "@hv_arg"; T "\$" ++ int_text n; name; type; default; yesno req].
Proof.
  intros P A B C. unfold decl_text, rec_text, rec_words, plain_rec, at_xy. cbn [r_atoms r_width map app]. rewrite !written_int. rewrite <- dollar_written by auto.
  rewrite (name_written name A), (name_written type B), (name_written default C). destruct req; reflexivity.
Qed.
Lemma decl_words x y n name type default req : 0 <= n -> name_ok name -> name_ok type -> name_ok default ->
  words (decl_text x y n name type default req) = [T "#X"; T "text"; int_text x; int_text y; T "@hv_arg"; T "\$" ++ int_text n; name; type; default; yesno req].
Proof.
  intros P A B C. rewrite decl_join by auto. apply words_join.
  constructor; [lit_solid|]. constructor; [lit_solid|]. constructor; [apply int_solid|]. constructor; [apply int_solid|]. constructor; [lit_solid|].
  constructor. { split; [discriminate|]. intros c I. apply in_app_iff in I as [I|I]; [cbn in I; destruct I as [<-|[<-|[]]]; reflexivity|]. apply (proj2 (int_solid n)). auto. }
  constructor; [apply word_solid, A|]. constructor; [apply word_solid, B|]. constructor; [apply word_solid, C|].
  constructor; [|constructor]. destruct req; lit_solid.
Qed.
Lemma decl_read x y n name type default req : 0 <= n -> name_ok name -> name_ok type -> name_ok default ->
  read_arg (decl_text x y n name type default req) = Some (n - 1, name, type, default, req).
Proof.
  intros P A B C. unfold read_arg. rewrite decl_words by auto. cbn [nth_error]. change (is_word_at _ 4 "@hv_arg") with true. cbv iota.
  change (skipn 2 (T "\$" ++ int_text n)) with (int_text n). rewrite read_int_text. destruct req; reflexivity.
Qed.
Lemma decl_last x y n name type default req : 0 <= n -> name_ok name -> name_ok type -> name_ok default -> last (decl_text x y n name type default req) 0 = 101.
Proof.
  intros P A B C. rewrite decl_join by auto. do 9 rewrite join_cons by discriminate. rewrite !app_assoc. destruct req.
  - change (join (T " ") [yesno true]) with (T "tru" ++ [101]). rewrite !app_assoc. apply last_app.
  - change (join (T " ") [yesno false]) with (T "fals" ++ [101]). rewrite !app_assoc. apply last_app.
Qed.
Lemma decl_contains x y n name type default req : 0 <= n -> name_ok name -> name_ok type -> name_ok default -> contains (T "@hv_arg") (decl_text x y n name type default req) = true.
Proof. intros P A B C. rewrite decl_join by auto. do 5 rewrite join_cons by discriminate. rewrite !app_assoc. rewrite <- app_assoc, <- app_assoc. apply contains_app. Qed.
Lemma decl_line x y n name type default req A d' cur depth ls : 0 <= n -> name_ok name -> name_ok type -> name_ok default -> cur = Some root_key ->
  hv_args ((root_key, A) :: d') cur depth ((decl_text x y n name type default req ++ [59]) :: ls) =
  hv_args ((root_key, A ++ [decl_text x y n name type default req]) :: d') cur depth ls.
Proof.
  intros P B C D ->. cbn [hv_args]. rewrite contains_semi, decl_contains by auto.
  assert (S : starts (T "#N canvas") (decl_text x y n name type default req ++ [59]) = false).
  { unfold decl_text, plain_rec. match goal with |- context [at_xy _ _ _ ?l] => destruct (xy_text "text" x y l None eq_refl) as [s ->] end. reflexivity. }
  rewrite S. cbn [append_at]. rewrite text_eqb_refl. pose proof (decl_last x y n name type default req P B C D) as L.
  rewrite rstrip_semi by (rewrite L; discriminate). reflexivity.
Qed.
Definition arg_of (t : thing) (li : text) : Prop := exists n name type default req,
  declares t n name type default req /\ read_arg li = Some (n - 1, name, type, default, req).
Lemma no_mentions t : ~ mentions t -> no_arg t.
Proof.
  intros H r R. destruct (contains (T "@hv_arg") (rec_text r)) eqn:E; auto. exfalso. apply H. exists r. auto.
Qed.
Lemma top_things ts : Forall (distinct_inside []) ts ->
  Forall (fun t => if is_declaration t then exists n name type default req, declares t n name type default req /\ 0 <= n /\ name_ok name /\ name_ok type /\ name_ok default else ~ mentions t) ts ->
  forall A d ls, hv_inv root_key A [] d -> exists l d2,
  hv_args d (Some root_key) 0 (map (fun r => rec_text r ++ [59]) (flat_map thing_recs ts) ++ ls) = hv_args d2 (Some root_key) 0 ls /\
  hv_inv root_key (A ++ l) [] d2 /\ Forall2 arg_of (filter is_declaration ts) l.
Proof.
  induction ts as [|t ts IH]; intros D H A d ls I.
  - exists [], d. rewrite app_nil_r. repeat split; auto. constructor.
  - inversion D; subst. inversion H as [|? ? Ht Hts]; subst. cbn [flat_map filter]. rewrite map_app, <- app_assoc. destruct (is_declaration t) eqn:E.
    + destruct Ht as (n & name & type & default & req & De & P & N1 & N2 & N3). pose proof De as De'. destruct De as (x & y & ->). cbn [thing_recs map app].
      destruct I as (d' & -> & I1 & I2). change (rec_text (plain_rec _) ++ [59]) with (decl_text x y n name type default req ++ [59]). rewrite decl_line by auto.
      destruct (IH ltac:(auto) Hts (A ++ [decl_text x y n name type default req]) ((root_key, A ++ [decl_text x y n name type default req]) :: d') ls) as (l & d2 & E1 & E2 & E3).
      { exists d'. auto. }
      exists (decl_text x y n name type default req :: l), d2. rewrite E1. split; [reflexivity|]. rewrite <- app_assoc in E2. split; [exact E2|]. constructor; auto.
      exists n, name, type, default, req. split; auto. apply decl_read; auto.
    + destruct (hv_thing t A [] d (Some root_key) (map (fun r => rec_text r ++ [59]) (flat_map thing_recs ts) ++ ls)) as (d2 & cur2 & E1 & I2 & C); auto.
      { apply no_mentions. auto. }
      change (zlen []) with 0 in E1. rewrite E1. rewrite C by auto. apply IH; auto.
Qed.
Theorem args_found s : sheet_ok s -> Forall (distinct_inside []) (things s) ->
  Forall (fun t => if is_declaration t then exists n name type default req, declares t n name type default req /\ 0 <= n /\ name_ok name /\ name_ok type /\ name_ok default else ~ mentions t) (things s) ->
  exists l, file_hv_args (patch_file unbroken s) = Some l /\ Forall2 arg_of (filter is_declaration (things s)) l.
Proof.
  intros H D M. unfold file_hv_args. unfold patch_file at 1. rewrite unbroken_file by (constructor; [apply canvas_ok|apply sheet_recs_ok; auto]).
  destruct (first_starts unbroken s H) as (first & E & _).
  assert (F : first = root_key).
  { unfold patch_file in E. rewrite records_of_file in E; [cbn [map] in E; injection E as <-; reflexivity|]. constructor; [apply rec_fwords, canvas_ok|].
    pose proof (sheet_recs_ok s H) as F. revert F. apply Forall_impl. apply rec_fwords. }
  rewrite E. cbn [map]. change (hv_args [] None (-1) ((rec_text canvas_rec ++ [59]) :: ?ls)) with (hv_args [(root_key, [])] (Some root_key) 0 ls).
  destruct s as [ts ws]. cbn [sheet_recs things] in *. rewrite map_app.
  destruct (top_things ts D M [] [(root_key, [])] (map (fun r => rec_text r ++ [59]) (map wire_rec ws))) as (l & d2 & E1 & I & A).
  { exists []. split; [reflexivity|]. split; [apply incl_refl|constructor]. }
  rewrite E1. rewrite <- (app_nil_r (map _ (map wire_rec ws))), wires_skip. cbn [hv_args]. destruct I as (d' & -> & _). cbn [lookup app]. rewrite F, text_eqb_refl.
  exists l. auto.
Qed.
