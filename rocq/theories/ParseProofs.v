(** Files, records and words. *)
From Verif Require Import ParseModel ParseSpec.
From Coq Require Import Lia String.
Local Open Scope list_scope.
Local Open Scope Z_scope.

(** ** Texts *)
Lemma text_eqb_refl a : text_eqb a a = true.
Proof. induction a; cbn; auto. rewrite Z.eqb_refl. auto. Qed.
Lemma text_eqb_eq a b : text_eqb a b = true <-> a = b.
Proof.
  split; [|intros ->; apply text_eqb_refl]. revert b. induction a as [|x a IH]; intros [|y b] H; cbn in H; try discriminate; auto.
  apply andb_prop in H as [E H]. apply Z.eqb_eq in E. subst. f_equal. auto.
Qed.
Lemma text_eqb_neq a b : a <> b -> text_eqb a b = false.
Proof. intro H. destruct (text_eqb a b) eqn:E; auto. apply text_eqb_eq in E. contradiction. Qed.
Lemma starts_app p s : starts p (p ++ s) = true.
Proof. induction p; cbn; auto. rewrite Z.eqb_refl. auto. Qed.
Lemma starts_split p s : starts p s = true -> exists r, s = p ++ r.
Proof.
  revert s. induction p as [|x p IH]; intros s H; [exists s; reflexivity|]. destruct s as [|y s]; cbn in H; [discriminate|].
  apply andb_prop in H as [E H]. apply Z.eqb_eq in E. subst. destruct (IH _ H) as [r ->]. exists r. reflexivity.
Qed.
Lemma ends_split p s : ends_with p s = true -> exists r, s = r ++ p.
Proof.
  unfold ends_with. intro H. destruct (starts_split _ _ H) as [r E]. exists (rev r). rewrite <- (rev_involutive s), E, rev_app_distr, rev_involutive. reflexivity.
Qed.
Lemma ends_app p s : ends_with p (s ++ p) = true.
Proof. unfold ends_with. rewrite rev_app_distr. apply starts_app. Qed.
Lemma ends_not p s : (forall r, s <> r ++ p) -> ends_with p s = false.
Proof. intro H. destruct (ends_with p s) eqn:E; auto. destruct (ends_split _ _ E) as [r ->]. exfalso. eapply H; eauto. Qed.
Lemma snoc_inj {A} (a b : list A) x y : a ++ [x] = b ++ [y] -> a = b /\ x = y.
Proof. apply app_inj_tail. Qed.

(** ** Lines *)
Lemma universal_id s : ~ In CR s -> universal s = s.
Proof.
  induction s as [|c s IH]; intro H; [reflexivity|]. cbn. destruct (Z.eqb_spec c CR) as [->|E]; [exfalso; apply H; left; auto|].
  rewrite IH; auto. intro; apply H; right; auto.
Qed.
Lemma universal_crlf s : ~ In CR s -> universal (to_crlf s) = s.
Proof.
  induction s as [|c s IH]; intro H; [reflexivity|]. assert (H' : ~ In CR s) by (intro; apply H; right; auto).
  unfold to_crlf. cbn [flat_map]. fold (to_crlf s). destruct (Z.eqb_spec c 10) as [->|E].
  - cbn. rewrite IH; auto.
  - cbn [app]. cbn [universal]. destruct (Z.eqb_spec c CR) as [->|E']; [exfalso; apply H; left; auto|]. rewrite IH; auto.
Qed.
Lemma lines_word w cur s : ~ In NL w -> lines_from cur (w ++ s) = lines_from (cur ++ w) s.
Proof.
  revert cur. induction w as [|c w IH]; intros cur H; [rewrite app_nil_r; reflexivity|].
  cbn. destruct (Z.eqb_spec c NL) as [->|E]; [exfalso; apply H; left; auto|]. rewrite IH by (intro; apply H; right; auto).
  rewrite <- app_assoc. reflexivity.
Qed.

(** A word as it stands in a file. *)
Definition fword (w : text) : Prop :=
  w <> [] /\ ~ In NL w /\ ~ In CR w /\ (forall r, w = r ++ [59] -> exists q, r = q ++ [92]).
Definition no_bs_end (w : text) : Prop := forall r, w <> r ++ [92].
(** The words of a record, the last of which may end it. *)
Definition fwords (l : list text) : Prop := l <> [] /\ Forall fword l /\ no_bs_end (last l []).

(** Joining words. *)
Lemma join_cons sep w l : l <> [] -> join sep (w :: l) = w ++ sep ++ join sep l.
Proof. destruct l; [congruence|reflexivity]. Qed.
Lemma put_cons brk k w l : l <> [] -> put_words brk k (w :: l) = w ++ [if brk k then 10 else 32] ++ put_words brk (S k) l.
Proof. destruct l; [congruence|reflexivity]. Qed.
Lemma join_app sep a b : a <> [] -> b <> [] -> join sep (a ++ b) = join sep a ++ sep ++ join sep b.
Proof.
  intros A B. induction a as [|w a IH]; [congruence|]. destruct a as [|w' a].
  - cbn [app]. apply join_cons. auto.
  - change ((w :: w' :: a) ++ b) with (w :: ((w' :: a) ++ b)). rewrite join_cons by discriminate. rewrite IH by discriminate.
    rewrite (join_cons sep w (w' :: a)) by discriminate. rewrite <- !app_assoc. reflexivity.
Qed.

(** [part]: the part of the record on the current line, [cur]; [conc]: the lines before. *)
Definition glue (conc li : text) : text := match conc with [] => li | _ => conc ++ T " " ++ li end.
Lemma glue_ne conc li : li <> [] -> glue conc li <> [].
Proof. unfold glue. destruct conc; auto. intros _ H. discriminate. Qed.
Lemma glue_app conc a b : glue conc (a ++ b) = glue conc a ++ b.
Proof. unfold glue. destruct conc; auto. rewrite <- !app_assoc. reflexivity. Qed.

(** An end of line inside the record. *)
Lemma not_end w : fword w -> forall p, ends_with (T ";") (p ++ w) && negb (ends_with (T "\;") (p ++ w)) = false.
Proof.
  intros (N & _ & _ & H) p. destruct (ends_with (T ";") (p ++ w)) eqn:E; auto.
  destruct (ends_split _ _ E) as [r R]. change (T ";") with [59] in R.
  destruct (exists_last N) as (w' & c & ->). rewrite app_assoc in R. apply snoc_inj in R as [R ->].
  destruct (H w' eq_refl) as [q ->]. cbn [andb]. replace (p ++ (q ++ [92]) ++ [59]) with ((p ++ q) ++ T "\;") by (cbn; rewrite <- !app_assoc; reflexivity).
  rewrite ends_app. reflexivity.
Qed.
Lemma is_end w p : w <> [] -> no_bs_end w -> ends_with (T ";") ((p ++ w) ++ [59]) && negb (ends_with (T "\;") ((p ++ w) ++ [59])) = true.
Proof.
  intros N H. change [59] with (T ";"). rewrite ends_app. cbn [andb]. rewrite ends_not; auto. intros r R.
  change (T "\;") with ([92] ++ [59]) in R. change (T ";") with [59] in R. rewrite app_assoc in R. apply snoc_inj in R as [R _].
  destruct (exists_last N) as (w' & c & ->). rewrite app_assoc in R. apply snoc_inj in R as [_ ->]. eapply H; eauto.
Qed.

(** Reading a record: [cur] is what the current line already holds. *)
Lemma read_words brk l : l <> [] -> Forall fword l -> no_bs_end (last l []) -> forall k conc cur s,
  pd_lines conc (lines_from cur (put_words brk k l ++ [59; 10] ++ s)) =
  (glue conc (cur ++ join (T " ") l)) :: pd_lines [] (lines_from [] s).
Proof.
  induction l as [|w l IH]; intros N F B k conc cur s; [congruence|]. inversion F as [|? ? Fw Fl]; subst.
  destruct Fw as (Wn & Wl & Wr & We). destruct l as [|w' l].
  - cbn [put_words join]. rewrite lines_word by auto. cbn [app lines_from]. replace (59 =? NL) with false by reflexivity.
    cbn [lines_from]. replace (10 =? NL) with true by reflexivity. cbn [pd_lines]. rewrite is_end by (auto; exact B).
    rewrite removelast_last. reflexivity.
  - rewrite put_cons, join_cons by discriminate. rewrite <- !app_assoc. rewrite lines_word by auto. cbn [last] in B.
    destruct (brk k).
    + cbn [app lines_from]. replace (10 =? NL) with true by reflexivity. cbn [pd_lines].
      rewrite not_end by (repeat split; auto). fold (glue conc (cur ++ w)). fold (glue (glue conc (cur ++ w))).
      specialize (IH ltac:(discriminate) Fl B (S k) (glue conc (cur ++ w)) [] s).
      change (match conc with [] => cur ++ w | _ :: _ => conc ++ T " " ++ cur ++ w end) with (glue conc (cur ++ w)).
      cbn [app] in IH. etransitivity; [exact IH|]. f_equal.
      assert (G : glue conc (cur ++ w) <> []) by (apply glue_ne; destruct cur; [auto|discriminate]).
      destruct (glue conc (cur ++ w)) eqn:E; [congruence|]. unfold glue at 1. rewrite <- E.
      rewrite (app_assoc cur w), (glue_app conc (cur ++ w)). reflexivity.
    + change (lines_from (cur ++ w) ([32] ++ put_words brk (S k) (w' :: l) ++ [59; 10] ++ s))
        with (lines_from ((cur ++ w) ++ [32]) (put_words brk (S k) (w' :: l) ++ [59; 10] ++ s)).
      rewrite IH by (auto; discriminate). f_equal. rewrite <- !app_assoc. reflexivity.
Qed.
(** All records. *)
Lemma read_recs brk l : Forall (fun r => fwords (rec_words r)) l -> forall i,
  pd_lines [] (lines_from [] (put_recs brk i l)) = map (fun r => join (T " ") (rec_words r)) l.
Proof.
  induction 1 as [|r l (N & F & B) _ IH]; intro i; [reflexivity|].
  cbn [put_recs map]. rewrite read_words by auto. cbn [app glue]. f_equal. apply IH.
Qed.
Lemma put_words_in brk l : forall k c, In c (put_words brk k l) -> (exists w, In w l /\ In c w) \/ c = 10 \/ c = 32.
Proof.
  induction l as [|w l IH]; intros k c H; [destruct H|]. destruct l as [|w' l].
  - left. exists w. split; [left|]; auto.
  - rewrite put_cons in H by discriminate. apply in_app_iff in H as [H|H]; [left; exists w; split; [left|]; auto|].
    apply in_app_iff in H as [H|H].
    + right. destruct (brk k); cbn in H; intuition.
    + destruct (IH _ _ H) as [(v & A & D)|D]; auto. left. exists v. split; [right; auto|auto].
Qed.
Lemma put_recs_cr brk l : Forall (fun r => fwords (rec_words r)) l -> forall i, ~ In CR (put_recs brk i l).
Proof.
  induction 1 as [|r l (N & F & B) _ IH]; intros i H; [destruct H|]. cbn [put_recs] in H.
  apply in_app_iff in H as [H|H].
  - apply put_words_in in H as [(w & A & D)|[D|D]]; [|discriminate..]. rewrite Forall_forall in F. destruct (F _ A) as (_ & _ & C & _). auto.
  - cbn [app In] in H. destruct H as [H|[H|H]]; [discriminate..|]. eapply IH; eauto.
Qed.
Theorem records_of_file brk l : Forall (fun r => fwords (rec_words r)) l ->
  records (pd_file brk l) = map (fun r => join (T " ") (rec_words r)) l.
Proof.
  intro F. unfold records, file_lines, pd_file. rewrite universal_id by (apply put_recs_cr; auto). apply read_recs. auto.
Qed.
Theorem records_of_crlf s : ~ In 13 s -> records (to_crlf s) = records s.
Proof. intro F. unfold records, file_lines. rewrite universal_crlf by auto. rewrite universal_id by auto. reflexivity. Qed.
