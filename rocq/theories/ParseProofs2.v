(** The words of a record. *)
From Verif Require Import ParseModel ParseSpec ParseProofs.
From Coq Require Import Lia String ZifyBool.
Local Open Scope list_scope.
Local Open Scope Z_scope.

Definition bs (c : Z) (a : text) : bool := (c =? 44) || (c =? 59) || (c =? 92) || (c =? 32) || dollar_digit c a.
Lemma written_cons c a : written (c :: a) = (if bs c a then [92; c] else [c]) ++ written a.
Proof. reflexivity. Qed.
Lemma written_in a c : In c (written a) -> In c a \/ c = 92.
Proof.
  induction a as [|x a IH]; [intros []|]. rewrite written_cons. intro H. apply in_app_iff in H as [H|H].
  - destruct (bs x a); cbn in H |- *; intuition.
  - apply IH in H as [H|H]; [left; right|right]; auto.
Qed.
Lemma written_ne a : a <> [] -> written a <> [].
Proof. destruct a as [|c a]; [congruence|]. intros _. rewrite written_cons. destruct (bs c a); discriminate. Qed.
(** The last character. *)
Lemma dollar_digit_app c a x b : dollar_digit c (a ++ x :: b) = match a with [] => dollar_digit c [x] | _ => dollar_digit c a end.
Proof. destruct a; reflexivity. Qed.
Lemma written_last a c : exists q, written (a ++ [c]) = q ++ (if (c =? 44) || (c =? 59) || (c =? 92) || (c =? 32) then [92; c] else [c]).
Proof.
  induction a as [|x a [q E]].
  - exists []. cbn [app]. rewrite written_cons. cbn [written]. rewrite app_nil_r. unfold bs, dollar_digit. rewrite andb_false_r, orb_false_r. reflexivity.
  - cbn [app]. rewrite written_cons, E. eexists. rewrite app_assoc. reflexivity.
Qed.
Lemma written_fword a : atom_ok a -> fword (written a) /\ no_bs_end (written a).
Proof.
  intros (N & A & B & C). split.
  - repeat split.
    + apply written_ne; auto.
    + intro H. apply written_in in H as [H|H]; [auto|discriminate].
    + intro H. apply written_in in H as [H|H]; [auto|discriminate].
    + intros r H. destruct (exists_last N) as (a' & c & ->). destruct (written_last a' c) as [q E]. rewrite E in H.
      destruct ((c =? 44) || (c =? 59) || (c =? 92) || (c =? 32)) eqn:S.
      * replace (q ++ [92; c]) with ((q ++ [92]) ++ [c]) in H by (rewrite <- app_assoc; reflexivity). apply snoc_inj in H as [H _]. eauto.
      * apply snoc_inj in H as [_ ->]. discriminate.
  - intros r H. destruct (exists_last N) as (a' & c & ->). destruct (written_last a' c) as [q E]. rewrite E in H.
    assert (D : c <> 92) by (intros ->; apply C; apply in_app_iff; right; left; auto).
    destruct ((c =? 44) || (c =? 59) || (c =? 92) || (c =? 32)).
    + replace (q ++ [92; c]) with ((q ++ [92]) ++ [c]) in H by (rewrite <- app_assoc; reflexivity). apply snoc_inj in H as [_ ->]. auto.
    + apply snoc_inj in H as [_ ->]. auto.
Qed.
Lemma last_app {A} (l : list A) x d : last (l ++ [x]) d = x.
Proof. apply last_last. Qed.
Lemma Forall_map' {A B} (f : A -> B) (P : B -> Prop) l : (forall a, In a l -> P (f a)) -> Forall P (map f l).
Proof. intro H. apply Forall_forall. intros b I. apply in_map_iff in I as (a & <- & I). auto. Qed.
Lemma last_comma_snoc l w : last_comma (l ++ [w]) = l ++ [w ++ T ","].
Proof. induction l as [|x l IH]; [reflexivity|]. cbn [app last_comma]. rewrite IH. destruct (l ++ [w]) eqn:E; [destruct l; discriminate|reflexivity]. Qed.
Lemma digit_fword d : digits d -> fword d /\ no_bs_end d.
Proof.
  intros [N F]. rewrite Forall_forall in F. split.
  - repeat split; auto.
    + intro H. apply F in H. unfold NL in H. lia.
    + intro H. apply F in H. unfold CR in H. lia.
    + intros r ->. specialize (F 59 ltac:(apply in_app_iff; right; left; auto)). lia.
  - intros r ->. specialize (F 92 ltac:(apply in_app_iff; right; left; auto)). lia.
Qed.
Lemma rec_fwords r : rec_ok r -> fwords (rec_words r).
Proof.
  intros (N & F & W). unfold rec_words. destruct (exists_last N) as (l & a & E). rewrite E in *. rewrite Forall_forall in F.
  assert (M : Forall fword (map written l)) by (apply Forall_map'; intros x I; apply written_fword; apply F; apply in_app_iff; auto).
  assert (A : atom_ok a) by (apply F; apply in_app_iff; right; left; auto).
  destruct (r_width r) as [d|].
  - rewrite map_app. cbn [map]. rewrite last_comma_snoc. split; [destruct (map written l); discriminate|]. destruct (digit_fword d W) as [D1 D2]. split.
    + apply Forall_app. split.
      * apply Forall_app. split; auto. constructor; auto. destruct (written_fword a A) as [(W1 & W2 & W3 & W4) _].
        repeat split.
        -- destruct (written a); discriminate.
        -- intro H. apply in_app_iff in H as [H|H]; [auto|]. cbn in H. unfold NL in H. lia.
        -- intro H. apply in_app_iff in H as [H|H]; [auto|]. cbn in H. unfold CR in H. lia.
        -- intros q H. change (T ",") with [44] in H. apply snoc_inj in H as [_ H]. discriminate.
      * constructor; [|constructor; auto]. repeat split; try discriminate; cbn; unfold NL, CR; try lia.
        intros q H. apply (snoc_inj [] q 102 59) in H as [_ H]. discriminate.
    + change [T "f"; d] with ([T "f"] ++ [d]). rewrite app_assoc, last_app. auto.
  - rewrite map_app. split; [destruct (map written l); discriminate|]. split.
    + apply Forall_app. split; auto. constructor; auto. apply written_fword; auto.
    + cbn [map]. rewrite last_app. apply written_fword; auto.
Qed.

(** ** Splitting *)
(** The text of a record without backslashes has no unescaped spaces inside its words. *)
Lemma split_word a : ~ In 92 a -> forall prev cur s,
  (prev = true -> match a with c :: _ => c <> 32 | [] => True end) ->
  split_spaces prev cur (written a ++ s) = split_spaces (match a with [] => prev | _ => false end) (cur ++ written a) s.
Proof.
  induction a as [|c a IH]; intros B prev cur s P; [cbn [written app]; rewrite app_nil_r; reflexivity|].
  assert (B' : ~ In 92 a) by (intro; apply B; right; auto). assert (C : c <> 92) by (intros ->; apply B; left; auto).
  rewrite written_cons. rewrite <- app_assoc. destruct (bs c a) eqn:S.
  - cbn [app]. cbn [split_spaces]. unfold SP at 1. replace (92 =? 32) with false by reflexivity. cbn [andb].
    unfold BACKSLASH. replace (92 =? 92) with true by reflexivity. cbn [negb]. rewrite andb_false_r.
    replace (c =? 92) with false by lia. rewrite IH by (auto; discriminate). rewrite <- !app_assoc. cbn [app]. destruct a; reflexivity.
  - cbn [app split_spaces]. assert (c <> 32) by (intros ->; unfold bs in S; cbn in S; discriminate). unfold SP. replace (c =? 32) with false by lia.
    cbn [andb]. unfold BACKSLASH. replace (c =? 92) with false by lia. rewrite IH by (auto; discriminate). rewrite <- !app_assoc. cbn [app].
    destruct a; reflexivity.
Qed.
Lemma split_words l : l <> [] -> (forall a, In a l -> a <> [] /\ ~ In 92 a) -> forall cur,
  split_spaces false cur (join (T " ") (map written l)) = (cur ++ written (hd [] l)) :: map written (tl l).
Proof.
  induction l as [|a l IH]; intros N F cur; [congruence|]. destruct (F a ltac:(left; auto)) as [A B]. destruct l as [|a' l].
  - cbn [map join hd tl]. rewrite <- (app_nil_r (written a)) at 1. rewrite split_word by (auto; discriminate). destruct a; [congruence|]. reflexivity.
  - cbn [map]. rewrite join_cons by discriminate. rewrite split_word by (auto; discriminate). destruct a as [|c a]; [congruence|].
    change (T " " ++ join (T " ") (written a' :: map written l)) with (32 :: join (T " ") (map written (a' :: l))). cbn [split_spaces].
    unfold SP. replace (32 =? 32) with true by reflexivity. cbn [andb negb hd tl map]. f_equal.
    rewrite IH by (try discriminate; intros x I; apply F; right; auto). reflexivity.
Qed.
(** Replacing "\ ". *)
Lemma held_cons c a : held (c :: a) = (if (c =? 44) || (c =? 59) || (c =? 92) || dollar_digit c a then [92; c] else [c]) ++ held a.
Proof. reflexivity. Qed.
Lemma replace_plain old new c s : starts old (c :: s) = false -> replace_from old new (c :: s) 0 = c :: replace_from old new s 0.
Proof. intro H. cbn [replace_from]. rewrite H. reflexivity. Qed.
Lemma replace_hit old new s : old <> [] -> replace_from old new (old ++ s) 0 = new ++ replace_from old new s 0.
Proof.
  intro N. destruct old as [|c old]; [congruence|].
  assert (D : forall k s, replace_from (c :: old) new (k ++ s) (List.length k) = replace_from (c :: old) new s 0).
  { induction k; intros; [reflexivity|]. cbn [app List.length replace_from]. auto. }
  change ((c :: old) ++ s) with (c :: (old ++ s)). cbn [replace_from]. change (c :: old ++ s) with ((c :: old) ++ s). rewrite starts_app.
  f_equal. cbn [List.length]. rewrite Nat.sub_succ, Nat.sub_0_r. apply D.
Qed.
Lemma replace_written a : ~ In 92 a -> replace (written a) (T "\ ") (T " ") = held a.
Proof.
  unfold replace. induction a as [|c a IH]; intro B; [reflexivity|].
  assert (B' : ~ In 92 a) by (intro; apply B; right; auto). assert (C : c <> 92) by (intros ->; apply B; left; auto).
  specialize (IH B'). rewrite written_cons, held_cons. unfold bs. change (T "\ ") with [92; 32] in *. change (T " ") with [32] in *.
  destruct (Z.eqb_spec c 32) as [->|E].
  - replace (dollar_digit 32 a) with false by reflexivity. cbn [Z.eqb orb]. change ([92; 32] ++ written a) with (([92; 32]) ++ written a).
    rewrite replace_hit by discriminate. cbn. rewrite IH. reflexivity.
  - rewrite orb_false_r. destruct ((c =? 44) || (c =? 59) || (c =? 92) || dollar_digit c a).
    + cbn [app]. rewrite replace_plain; [|cbn [starts]; replace (32 =? c) with false by lia; rewrite andb_comm; reflexivity]. f_equal.
      rewrite replace_plain; [|cbn [starts]; replace (92 =? c) with false by lia; reflexivity]. f_equal. exact IH.
    + cbn [app]. rewrite replace_plain; [|cbn [starts]; replace (92 =? c) with false by lia; reflexivity]. f_equal. exact IH.
Qed.
Lemma map_replace l : (forall a, In a l -> ~ In 92 a) -> map (fun w => replace w (T "\ ") (T " ")) (map written l) = map held l.
Proof. intro H. rewrite map_map. apply map_ext_in. intros a I. apply replace_written. auto. Qed.

(** ** The width *)
Lemma span_app d r : Forall (fun c => is_digit c = true) d -> match r with c :: _ => is_digit c = false | [] => True end -> span_digits (d ++ r) = (d, r).
Proof.
  induction 1 as [|c d C _ IH]; intro R.
  - destruct r as [|c r]; [reflexivity|]. cbn. rewrite R. reflexivity.
  - cbn. rewrite C, IH; auto.
Qed.
Lemma span_split s : let (d, r) := span_digits s in s = d ++ r /\ Forall (fun c => is_digit c = true) d.
Proof.
  induction s as [|c s IH]; [split; constructor|]. cbn. destruct (is_digit c) eqn:E; [|split; constructor].
  destruct (span_digits s) as [d r]. destruct IH as [-> F]. split; [reflexivity|]. constructor; auto.
Qed.
Lemma digits_is d : digits d <-> d <> [] /\ Forall (fun c => is_digit c = true) d.
Proof.
  unfold digits. split; intros [N F]; split; auto; revert F; apply Forall_impl; intros c; unfold is_digit; lia.
Qed.
Lemma strip_width_some x d : digits d -> strip_width (x ++ T ", f " ++ d) = x.
Proof.
  intro D. apply digits_is in D as [N F]. unfold strip_width. rewrite !rev_app_distr, <- app_assoc.
  rewrite span_app; [|apply Forall_rev; auto|reflexivity].
  destruct (rev d) eqn:E; [exfalso; apply N; rewrite <- (rev_involutive d), E; reflexivity|].
  cbn [negb andb]. rewrite starts_app. change (skipn 4 (rev (T ", f ") ++ rev x)) with (rev x). apply rev_involutive.
Qed.
Lemma join_width l w d : join (T " ") ((l ++ [w ++ T ","]) ++ [T "f"; d]) = join (T " ") (l ++ [w]) ++ T ", f " ++ d.
Proof.
  induction l as [|x l IH].
  - cbn [app]. change (join (T " ") [w ++ T ","; T "f"; d]) with ((w ++ T ",") ++ T " " ++ T "f" ++ T " " ++ d). change (join (T " ") [w]) with w.
    rewrite <- app_assoc. reflexivity.
  - cbn [app]. rewrite join_cons by (destruct l; discriminate). rewrite IH. rewrite (join_cons _ x (l ++ [w])) by (destruct l; discriminate).
    rewrite <- !app_assoc. reflexivity.
Qed.
(** A text that ends like a width. *)
Lemma split_comma y z : forall prev cur, exists init w,
  split_spaces prev cur (y ++ 44 :: 32 :: z) = init ++ (w ++ [44]) :: split_spaces false [] z.
Proof.
  induction y as [|c y IH]; intros prev cur.
  - exists [], cur. cbn [app split_spaces]. unfold SP, BACKSLASH. cbn. reflexivity.
  - cbn [app split_spaces]. destruct ((c =? SP) && negb prev).
    + destruct (IH false []) as (i & w & E). exists (cur :: i), w. rewrite E. reflexivity.
    + apply IH.
Qed.
Lemma split_digits d : Forall (fun c => is_digit c = true) d -> forall prev cur, split_spaces prev cur d = [cur ++ d].
Proof.
  induction 1 as [|c d C _ IH]; intros prev cur; [rewrite app_nil_r; reflexivity|]. cbn. unfold is_digit in C. unfold SP, BACKSLASH.
  replace (c =? 32) with false by lia. cbn [andb]. rewrite IH, <- app_assoc. reflexivity.
Qed.
Lemma written_plain a w : written a = w -> ~ In 92 w -> a = w.
Proof.
  revert w. induction a as [|c a IH]; intros w E B; [subst; reflexivity|]. rewrite written_cons in E. destruct (bs c a) eqn:S.
  - exfalso. apply B. subst. left. reflexivity.
  - subst w. cbn [app]. f_equal. apply IH; auto. intro H. apply B. right. auto.
Qed.
Lemma strip_width_none l : l <> [] -> Forall atom_ok l -> no_width l -> strip_width (join (T " ") (map written l)) = join (T " ") (map written l).
Proof.
  intros N F W. set (s := join (T " ") (map written l)). unfold strip_width.
  destruct (span_digits (rev s)) as [d r] eqn:E. pose proof (span_split (rev s)) as P. rewrite E in P. destruct P as [P D].
  destruct (negb match d with [] => true | _ :: _ => false end && starts (rev (T ", f ")) r) eqn:C; [|reflexivity].
  exfalso. apply andb_prop in C as [C1 C2]. destruct (starts_split _ _ C2) as [y ->].
  assert (S : s = rev y ++ 44 :: 32 :: (T "f " ++ rev d)).
  { rewrite <- (rev_involutive s), P, !rev_app_distr, rev_involutive, <- app_assoc. reflexivity. }
  assert (Q : split_spaces false [] s = map written l).
  { unfold s. rewrite split_words; auto; [destruct l; [congruence|reflexivity]|]. intros a I. rewrite Forall_forall in F. destruct (F a I) as (A & _ & _ & B). auto. }
  rewrite S in Q. destruct (split_comma (rev y) (T "f " ++ rev d) false []) as (i & w & X). rewrite X in Q.
  change (split_spaces false [] (T "f " ++ rev d)) with (T "f" :: split_spaces false [] (rev d)) in Q.
  rewrite split_digits in Q by (apply Forall_rev; auto). cbn [app] in Q.
  symmetry in Q. apply map_eq_app in Q as (l' & l2 & -> & _ & Q2). destruct l2 as [|a [|b [|e [|]]]]; try discriminate.
  injection Q2 as Qa Qb Qe. apply Forall_app in F as [_ F]. inversion F as [|? ? A F1]; subst.
  assert (Eb : b = T "f") by (apply written_plain in Qb; [exact Qb|cbn; intuition discriminate]).
  assert (Ee : e = rev d).
  { apply written_plain in Qe; auto. intro I. apply Forall_rev in D. rewrite Forall_forall in D. apply D in I. discriminate. }
  destruct A as (A & _). destruct (exists_last A) as (a' & c & ->). destruct (written_last a' c) as [q Eq]. rewrite Eq in Qa.
  assert (c = 44).
  { destruct ((c =? 44) || (c =? 59) || (c =? 92) || (c =? 32)).
    - replace (q ++ [92; c]) with ((q ++ [92]) ++ [c]) in Qa by (rewrite <- app_assoc; reflexivity). apply snoc_inj in Qa as [_ Qa]. auto.
    - apply snoc_inj in Qa as [_ Qa]. auto. }
  subst c. apply (W l' a' e).
  - rewrite Eb. reflexivity.
  - subst e. apply digits_is. split; [|apply Forall_rev; auto]. destruct d; [discriminate|]. cbn. intro H. destruct (rev d); discriminate.
Qed.
Lemma split_rec r : rec_ok r -> split_line (join (T " ") (rec_words r)) = map held (r_atoms r).
Proof.
  intros (N & F & W). unfold split_line.
  assert (E : strip_width (join (T " ") (rec_words r)) = join (T " ") (map written (r_atoms r))).
  { unfold rec_words. destruct (r_width r) as [d|].
    - destruct (exists_last N) as (l & a & ->). rewrite map_app. cbn [map]. rewrite last_comma_snoc, join_width. apply strip_width_some. auto.
    - apply strip_width_none; auto. }
  rewrite E. rewrite Forall_forall in F. rewrite split_words; auto.
  - etransitivity; [|apply map_replace; intros a I; apply F in I; apply I]. destruct (r_atoms r); [congruence|reflexivity].
  - intros a I. apply F in I. destruct I as (I1 & _ & _ & I2). auto.
Qed.
Theorem file_words brk l : Forall rec_ok l -> map split_line (records (pd_file brk l)) = map (fun r => map held (r_atoms r)) l.
Proof.
  intro F. rewrite records_of_file by (revert F; apply Forall_impl; apply rec_fwords). rewrite map_map. apply map_ext_in.
  intros r I. rewrite Forall_forall in F. apply split_rec. auto.
Qed.
