(** Message boxes. *)
From Verif Require Import ParseModel ParseSpec ParseProofs ParseProofs2.
From Coq Require Import Lia String ZifyBool.
Local Open Scope list_scope.
Local Open Scope Z_scope.

(** ** str.split() *)
Lemma words_blank a : forall cur b, words_from cur (a ++ 32 :: b) = words_from cur a ++ words_from [] b.
Proof.
  induction a as [|c a IH]; intros cur b.
  - cbn [app words_from]. change (is_blank 32) with true. cbv iota. destruct cur; reflexivity.
  - cbn [app words_from]. destruct (is_blank c); [|apply IH]. destruct cur; rewrite IH; reflexivity.
Qed.
Definition solid (w : text) : Prop := w <> [] /\ forall c, In c w -> is_blank c = false.
Lemma words_solid w : (forall c, In c w -> is_blank c = false) -> forall cur, words_from cur w = match cur ++ w with [] => [] | _ => [cur ++ w] end.
Proof.
  induction w as [|c w IH]; intros H cur; [rewrite app_nil_r; reflexivity|]. cbn [words_from]. rewrite (H c) by (left; auto).
  rewrite IH by (intros; apply H; right; auto). rewrite <- app_assoc. reflexivity.
Qed.
Lemma words_join l : Forall solid l -> words (join (T " ") l) = l.
Proof.
  unfold words. induction 1 as [|w l [N S] _ IH]; [reflexivity|]. destruct l as [|w' l].
  - cbn [join]. rewrite words_solid by auto. destruct w; [congruence|reflexivity].
  - rewrite join_cons by discriminate. change (T " " ++ ?x) with (32 :: x). rewrite words_blank, IH. rewrite words_solid by auto.
    destruct w; [congruence|reflexivity].
Qed.
Definition tail (t : text) : Prop := t = [] \/ t = T " ".
Lemma words_tail l t : Forall solid l -> tail t -> words (join (T " ") l ++ t) = l.
Proof.
  intros F [-> | ->]; [rewrite app_nil_r; apply words_join; auto|].
  unfold words. change (T " ") with (32 :: []) at 2. rewrite words_blank. cbn [words_from]. rewrite app_nil_r. apply words_join. auto.
Qed.
Lemma words_head s : words (T " " ++ s) = words s.
Proof. reflexivity. Qed.

(** ** str.split(sep) for a backslash and one more character *)
Fixpoint freeb (x : Z) (a : text) : bool :=
  match a with
  | [] => true
  | c :: a' => (if c =? 92 then match a' with d :: _ => negb (d =? x) | [] => false end else true) && freeb x a'
  end.
Lemma freeb_app x a b : freeb x a = true -> freeb x b = true -> freeb x (a ++ b) = true.
Proof.
  intros A B. induction a as [|c a IH]; [exact B|]. cbn [freeb app] in A |- *. apply andb_prop in A as [A1 A2]. rewrite IH by auto.
  destruct (c =? 92); [|reflexivity]. destruct a; [discriminate|]. cbn [app]. rewrite A1. reflexivity.
Qed.
Lemma freeb_nobs x a : ~ In 92 a -> freeb x a = true.
Proof.
  induction a as [|c a IH]; intro H; [reflexivity|]. cbn. rewrite IH by (intro; apply H; right; auto).
  replace (c =? 92) with false; [reflexivity|]. symmetry. apply Z.eqb_neq. intros ->. apply H. left. auto.
Qed.
Lemma freeb_join x l : Forall (fun w => freeb x w = true) l -> freeb x (join (T " ") l) = true.
Proof.
  induction 1 as [|w l W _ IH]; [reflexivity|]. destruct l; [exact W|]. rewrite join_cons by discriminate. apply freeb_app; auto.
Qed.
Lemma split_free x a : freeb x a = true -> forall cur s, split_from [92; x] (a ++ s) cur 0 = split_from [92; x] s (cur ++ a) 0.
Proof.
  induction a as [|c a IH]; intros A cur s; [rewrite app_nil_r; reflexivity|]. cbn [freeb] in A. apply andb_prop in A as [A1 A2].
  change ((c :: a) ++ s) with (c :: (a ++ s)). cbn [split_from].
  assert (E : starts [92; x] (c :: a ++ s) = false).
  { cbn [starts]. rewrite (Z.eqb_sym 92 c). destruct (c =? 92); [|reflexivity]. destruct a as [|d a]; [discriminate|]. cbn [app].
    rewrite (Z.eqb_sym x d). destruct (d =? x); [discriminate|reflexivity]. }
  rewrite E, IH by auto. rewrite <- app_assoc. reflexivity.
Qed.
Lemma sep_split x r cur : split_from [92; x] (92 :: x :: r) cur 0 = cur :: split_from [92; x] r [] 0.
Proof. cbn [split_from starts List.length Nat.sub]. rewrite !Z.eqb_refl. reflexivity. Qed.
Lemma split_pieces x bs : Forall (fun b => freeb x b = true) bs -> forall a, freeb x a = true ->
  split_on [92; x] (a ++ flat_map (fun b => [92; x] ++ b) bs) = a :: bs.
Proof.
  unfold split_on. intros F.
  assert (G : forall a cur, freeb x a = true -> split_from [92; x] (a ++ flat_map (fun b => [92; x] ++ b) bs) cur 0 = (cur ++ a) :: bs).
  { induction F as [|b bs B _ IH]; intros a cur A.
    - cbn [flat_map]. rewrite split_free by auto. reflexivity.
    - cbn [flat_map]. rewrite split_free by auto. rewrite <- app_assoc. etransitivity; [apply sep_split|]. f_equal. exact (IH b [] B). }
  intros a A. rewrite G by auto. reflexivity.
Qed.

(** ** The structure of a list of words with separators *)
Definition piece (b : text) (r : list text) : Prop := exists t, tail t /\ b = T " " ++ join (T " ") r ++ t.
Lemma join_pieces sep t0 Ls : tail t0 -> Forall (fun r => r <> []) Ls -> forall L0, L0 <> [] -> exists t bs,
  tail t /\ join (T " ") (L0 ++ flat_map (fun r => sep :: r) Ls) ++ t0 = (join (T " ") L0 ++ t) ++ flat_map (fun b => sep ++ b) bs /\
  Forall2 piece bs Ls.
Proof.
  intros T0 F. induction F as [|r Ls R _ IH]; intros L0 N.
  - exists t0, []. cbn [flat_map]. rewrite !app_nil_r. auto.
  - destruct (IH r R) as (t & bs & Tt & E & P). exists (T " "), ((T " " ++ join (T " ") r ++ t) :: bs).
    split; [right; auto|]. split.
    + cbn [flat_map]. rewrite join_app by (auto; discriminate). change ((sep :: r) ++ flat_map (fun r0 => sep :: r0) Ls) with (sep :: (r ++ flat_map (fun r0 => sep :: r0) Ls)).
      rewrite join_cons by (destruct r; [congruence|discriminate]). rewrite <- !app_assoc. rewrite <- !app_assoc in E. rewrite E. reflexivity.
    + constructor; auto. exists t. auto.
Qed.
Lemma commas_flat c m l : commas c (m :: l) = m ++ flat_map (fun r => c :: r) l.
Proof.
  revert m. induction l as [|m' l IH]; intro m; [cbn; rewrite app_nil_r; reflexivity|].
  change (commas c (m :: m' :: l)) with (m ++ [c] ++ commas c (m' :: l)). rewrite IH. reflexivity.
Qed.
Lemma piece_words b r : piece b r -> Forall solid r -> words b = r.
Proof. intros (t & Tt & ->) F. rewrite words_head. apply words_tail; auto. Qed.
Lemma piece_free x b r : piece b r -> Forall (fun w => freeb x w = true) r -> freeb x b = true.
Proof.
  intros (t & Tt & ->) F. apply freeb_app; [reflexivity|]. apply freeb_app; [apply freeb_join; auto|]. destruct Tt as [-> | ->]; reflexivity.
Qed.
Lemma piece_ne b r : piece b r -> is_empty b = false.
Proof. intros (t & _ & ->). reflexivity. Qed.

(** ** Words *)
Lemma word_solid w : word_ok w -> solid w.
Proof. intros [N H]. split; auto. intros c I. apply H in I. tauto. Qed.
Lemma word_nobs w : word_ok w -> ~ In 92 w.
Proof. intros [N H] I. apply H in I. tauto. Qed.
Definition words_ok (l : list (list text)) : Prop := Forall (fun m => m <> [] /\ Forall word_ok m) l.

(** Reading the messages of a text. *)
Lemma read_local ms t : ms <> [] -> messages_ok ms -> tail t ->
  filter (fun m : list text => match m with [] => false | _ => true end) (map words (split_on (T "\,") (join (T " ") (commas (T "\,") ms) ++ t))) = ms.
Proof.
  intros N M Tt. destruct ms as [|m l]; [congruence|]. rewrite commas_flat. inversion M as [|? ? [Mn Mw] Ml]; subst.
  assert (R : Forall (fun r : list text => r <> []) l) by (revert Ml; apply Forall_impl; tauto).
  destruct (join_pieces (T "\,") t l Tt R m Mn) as (t' & bs & Tt' & E & P). rewrite E. change (T "\,") with [92; 44].
  assert (FM : Forall (fun w => freeb 44 w = true) m) by (revert Mw; apply Forall_impl; intros; apply freeb_nobs, word_nobs; auto).
  assert (SM : Forall solid m) by (revert Mw; apply Forall_impl; apply word_solid).
  rewrite split_pieces.
  - cbn [map]. rewrite words_tail by auto. assert (W : map words bs = l).
    { clear -P Ml. revert Ml. induction P as [|b r bs l B _ IH]; intro Ml; [reflexivity|]. inversion Ml as [|? ? [X Y] Z]; subst. cbn [map]. f_equal; auto.
      apply piece_words; auto. revert Y. apply Forall_impl. apply word_solid. }
    rewrite W. cbn [filter]. destruct m as [|w m]; [congruence|]. f_equal. clear -Ml. induction Ml as [|r l [X _] _ IH]; [reflexivity|].
    cbn [filter]. destruct r; [congruence|]. rewrite IH. reflexivity.
  - clear -P Ml. revert Ml. induction P as [|b r bs l B _ IH]; intro Ml; [constructor|]. inversion Ml as [|? ? [X Y] Z]; subst. constructor; auto.
    eapply piece_free; eauto. revert Y. apply Forall_impl. intros; apply freeb_nobs, word_nobs; auto.
  - apply freeb_app; [apply freeb_join; auto|]. destruct Tt' as [-> | ->]; reflexivity.
Qed.
Definition remote_words (r : text * list (list text)) : list text := fst r :: commas (T "\,") (snd r).
Lemma commas_all (P : text -> Prop) c ms : P c -> Forall (fun m => m <> [] /\ Forall P m) ms -> Forall P (commas c ms).
Proof.
  intros C M. destruct ms as [|m l]; [constructor|]. rewrite commas_flat. inversion M as [|? ? [_ Mw] Ml]; subst. apply Forall_app. split; auto.
  clear -C Ml. induction Ml as [|r l [_ R] _ IH]; [constructor|]. cbn [flat_map app]. constructor; auto. apply Forall_app. split; auto.
Qed.
Lemma commas_ne c ms : ms <> [] -> messages_ok ms -> commas c ms <> [].
Proof. intros N M. destruct ms as [|m l]; [congruence|]. rewrite commas_flat. inversion M as [|? ? [X _] _]; subst. destruct m; [congruence|discriminate]. Qed.
Lemma free_commas ms : messages_ok ms -> Forall (fun w => freeb 59 w = true) (commas (T "\,") ms).
Proof.
  intro M. apply commas_all; [reflexivity|]. revert M. apply Forall_impl. intros m [X Y]. split; auto. revert Y. apply Forall_impl. intros; apply freeb_nobs, word_nobs; auto.
Qed.
Lemma solid_commas ms : messages_ok ms -> Forall solid (commas (T "\,") ms).
Proof.
  intro M. apply commas_all.
  - split; [discriminate|]. intros c I. cbn in I. destruct I as [<-|[<-|[]]]; reflexivity.
  - revert M. apply Forall_impl. intros m [X Y]. split; auto. revert Y. apply Forall_impl. apply word_solid.
Qed.

(** The text after "\$" has become "$". *)
Lemma read_plain local remote : local <> [] -> messages_ok local -> Forall (fun r => word_ok (fst r) /\ messages_ok (snd r)) remote ->
  forall s, replace s (T "\$") (T "$") = join (T " ") (commas (T "\,") local ++ flat_map (fun r => T "\;" :: remote_words r) remote) ->
  read_box s = Some (mkBox local (map (fun r => (fst r, commas (T "\,") (snd r))) remote)).
Proof.
  intros N M R s S. unfold read_box. rewrite S.
  assert (E : flat_map (fun r => T "\;" :: remote_words r) remote = flat_map (fun r => T "\;" :: r) (map remote_words remote)).
  { rewrite flat_map_concat_map, flat_map_concat_map, map_map. reflexivity. }
  rewrite E. assert (RN : Forall (fun r : list text => r <> []) (map remote_words remote)) by (apply Forall_map'; discriminate).
  destruct (join_pieces (T "\;") [] (map remote_words remote) ltac:(left; auto) RN (commas (T "\,") local) (commas_ne _ _ N M)) as (t & bs & Tt & J & P).
  rewrite app_nil_r in J. rewrite J. change (T "\;") with [92; 59].
  assert (RW : Forall (fun r => Forall solid r /\ Forall (fun w => freeb 59 w = true) r) (map remote_words remote)).
  { apply Forall_map'. intros r I. rewrite Forall_forall in R. destruct (R r I) as [R1 R2]. unfold remote_words. split; constructor.
    - apply word_solid; auto.
    - apply solid_commas; auto.
    - apply freeb_nobs, word_nobs; auto.
    - apply free_commas; auto. }
  assert (FB : Forall (fun b => freeb 59 b = true) bs).
  { clear -P RW. revert RW. induction P as [|b r bs l B _ IH]; intro RW; [constructor|]. inversion RW as [|? ? [X Y] Z]; subst. constructor; auto. eapply piece_free; eauto. }
  rewrite split_pieces; auto.
  - assert (NE : is_empty (join (T " ") (commas (T "\,") local) ++ t) = false).
    { destruct local as [|m l]; [congruence|]. inversion M as [|? ? [X Y] _]; subst. rewrite commas_flat. destruct m as [|w m]; [congruence|].
      inversion Y as [|? ? [W _] _]; subst. destruct w; [congruence|]. cbn [app]. destruct (m ++ flat_map (fun r => T "\," :: r) l); reflexivity. }
    assert (FI : filter (fun x => negb (is_empty x)) bs = bs).
    { clear -P. induction P as [|b r bs l B _ IH]; [reflexivity|]. cbn [filter]. rewrite (piece_ne _ _ B). cbn [negb]. rewrite IH. reflexivity. }
    cbn [filter]. rewrite NE. cbn [negb tl]. rewrite FI.
    assert (RR : read_remote bs = Some (map (fun r => (fst r, commas (T "\,") (snd r))) remote)).
    { clear -P RW. remember (map remote_words remote) as l eqn:L. revert remote L RW. induction P as [|b r bs l B _ IH]; intros remote L RW.
      - destruct remote; [reflexivity|discriminate].
      - destruct remote as [|x remote]; [discriminate|]. injection L as -> ->. inversion RW as [|? ? [X Y] Z]; subst. cbn [read_remote map].
        rewrite (piece_words _ _ B X). unfold remote_words. rewrite (IH remote eq_refl Z). reflexivity. }
    rewrite RR. rewrite read_local by auto. reflexivity.
  - apply freeb_app; [apply freeb_join, free_commas; auto|]. destruct Tt as [-> | ->]; reflexivity.
Qed.

(** ** "\$" becomes "$" *)
Notation D s := (replace_from (T "\$") (T "$") s 0).
Lemma D_other c s : c <> 92 -> D (c :: s) = c :: D s.
Proof. intro H. apply replace_plain. change (T "\$") with [92; 36]. cbn [starts]. replace (92 =? c) with false by lia. reflexivity. Qed.
Lemma D_bs c s : c <> 36 -> c <> 92 -> D (92 :: c :: s) = 92 :: c :: D s.
Proof.
  intros H K. rewrite replace_plain; [rewrite D_other; auto|]. change (T "\$") with [92; 36]. cbn [starts]. replace (36 =? c) with false by lia.
  rewrite andb_false_l, andb_false_r. reflexivity.
Qed.
Lemma D_held w s : word_ok w -> D (held w ++ s) = w ++ D s.
Proof.
  intros [_ H]. induction w as [|c w IH]; [reflexivity|]. assert (H' : forall c, In c w -> is_blank c = false /\ c <> 44 /\ c <> 59 /\ c <> 92) by (intros; apply H; right; auto).
  destruct (H c ltac:(left; auto)) as (_ & A & B & C). rewrite held_cons. replace (c =? 44) with false by lia. replace (c =? 59) with false by lia.
  replace (c =? 92) with false by lia. cbn [orb]. destruct (dollar_digit c w) eqn:E.
  - unfold dollar_digit in E. apply andb_prop in E as [E _]. apply Z.eqb_eq in E. subst c. rewrite <- app_assoc.
    change [92; 36] with (T "\$"). rewrite replace_hit by discriminate. rewrite IH by auto. reflexivity.
  - cbn [app]. rewrite D_other by auto. rewrite IH by auto. reflexivity.
Qed.
(** An atom, and what is left of it. *)
Definition becomes (a v : text) : Prop := forall s, D (held a ++ s) = v ++ D s.
Lemma D_join l l' : Forall2 becomes l l' -> D (join (T " ") (map held l)) = join (T " ") l'.
Proof.
  induction 1 as [|a v l l' A F IH]; [reflexivity|]. destruct F as [|a' v' l l' A' F].
  - cbn [map join]. rewrite <- (app_nil_r (held a)), (A []). cbn [replace_from]. apply app_nil_r.
  - change (map held (a :: a' :: l)) with (held a :: map held (a' :: l)). rewrite (join_cons _ (held a)), (join_cons _ v) by discriminate.
    rewrite A. f_equal. change (T " " ++ ?x) with (32 :: x). rewrite D_other by discriminate. f_equal. exact IH.
Qed.
Lemma becomes_comma : becomes (T ",") (T "\,").
Proof. intro s. change (held (T ",")) with [92; 44]. cbn [app]. rewrite D_bs by discriminate. reflexivity. Qed.
Lemma becomes_semi : becomes (T ";") (T "\;").
Proof. intro s. change (held (T ";")) with [92; 59]. cbn [app]. rewrite D_bs by discriminate. reflexivity. Qed.
Lemma becomes_words l : Forall word_ok l -> Forall2 becomes l l.
Proof. induction 1; constructor; auto. intro s. apply D_held; auto. Qed.
Lemma Forall2_app' {A B} (P : A -> B -> Prop) a b c d : Forall2 P a b -> Forall2 P c d -> Forall2 P (a ++ c) (b ++ d).
Proof. apply Forall2_app. Qed.
Lemma becomes_commas ms : messages_ok ms -> Forall2 becomes (commas (T ",") ms) (commas (T "\,") ms).
Proof.
  intro M. destruct ms as [|m l]; [constructor|]. rewrite !commas_flat. inversion M as [|? ? [_ Mw] Ml]; subst. apply Forall2_app; [apply becomes_words; auto|].
  clear -Ml. induction Ml as [|r l [_ R] _ IH]; [constructor|]. cbn [flat_map app]. constructor; [apply becomes_comma|]. apply Forall2_app; auto. apply becomes_words; auto.
Qed.
Theorem box_read local remote : local <> [] -> messages_ok local -> Forall (fun r => word_ok (fst r) /\ messages_ok (snd r)) remote ->
  read_box (join (T " ") (map held (box_atoms local remote))) = Some (mkBox local (map expand remote)).
Proof.
  intros N M R. unfold expand. apply read_plain; auto. apply D_join. unfold box_atoms. apply Forall2_app; [apply becomes_commas; auto|].
  clear -R. induction R as [|r l [R1 R2] _ IH]; [constructor|]. cbn [flat_map app]. constructor; [apply becomes_semi|].
  unfold remote_words. cbn [app]. constructor; [intro s; apply D_held; auto|]. apply Forall2_app; auto. apply becomes_commas; auto.
Qed.
(** The hidden box of a receiver. *)
Lemma D_nodollar s : (forall p q, s <> p ++ 92 :: 36 :: q) -> D s = s.
Proof.
  induction s as [|c s IH]; intro H; [reflexivity|]. rewrite replace_plain.
  - f_equal. apply IH. intros p q E. apply (H (c :: p) q). rewrite E. reflexivity.
  - destruct (starts (T "\$") (c :: s)) eqn:E; auto. exfalso. destruct (starts_split _ _ E) as [q Q]. apply (H [] q). exact Q.
Qed.
Lemma box_read_again ms : messages_ok ms -> read_box (join (T " ") (commas (T "\,") ms)) = Some (mkBox ms []).
Proof.
  intro M. destruct ms as [|m l]; [reflexivity|]. rewrite (read_plain (m :: l) []); auto; [discriminate|].
  cbn [flat_map]. rewrite app_nil_r. unfold replace.
  assert (F : Forall (fun w => freeb 36 w = true) (commas (T "\,") (m :: l))).
  { apply commas_all; [reflexivity|]. revert M. apply Forall_impl. intros r [X Y]. split; auto. revert Y. apply Forall_impl. intros; apply freeb_nobs, word_nobs; auto. }
  apply freeb_join in F. revert F. generalize (join (T " ") (commas (T "\,") (m :: l))). clear. intros s F. apply D_nodollar. intros p q ->.
  induction p as [|c p IH]; cbn [app freeb] in F.
  - cbn in F. discriminate.
  - apply andb_prop in F as [_ F]. auto.
Qed.
