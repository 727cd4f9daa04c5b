(** Canvases. *)
From Verif Require Import ParseModel ParseSpec ParseProofs ParseProofs2 ParseProofs3.
From Coq Require Import Lia String ZifyBool.
Local Open Scope list_scope.
Local Open Scope Z_scope.

(** ** Numbers *)
Lemma nat_text_read n : read_uint (nat_text n) = Some (match Z.to_int n with Decimal.Pos u => u | Decimal.Neg u => u end).
Proof.
  unfold nat_text. generalize (match Z.to_int n with Decimal.Pos u => u | Decimal.Neg u => u end).
  intro d; induction d as [|d IH|d IH|d IH|d IH|d IH|d IH|d IH|d IH|d IH|d IH]; [reflexivity|..]; cbn [read_uint]; rewrite IH; reflexivity.
Qed.
Lemma nat_text_chars n : Forall (fun c => 48 <= c <= 57) (nat_text n).
Proof.
  unfold nat_text. generalize (match Z.to_int n with Decimal.Pos u => u | Decimal.Neg u => u end).
  intro d; induction d as [|d IH|d IH|d IH|d IH|d IH|d IH|d IH|d IH|d IH|d IH]; [constructor|..]; (constructor; [lia|exact IH]).
Qed.
Lemma nat_text_ne n : nat_text n <> [].
Proof.
  intro E. pose proof (nat_text_read n) as R. rewrite E in R. cbn in R. injection R as R. pose proof (of_to n) as O.
  unfold Z.to_int in *. destruct n; cbn in R.
  - discriminate.
  - cbn in O. rewrite <- R in O. discriminate O.
  - cbn in O. rewrite <- R in O. discriminate O.
Qed.
Lemma int_text_chars n : Forall (fun c => c = 45 \/ 48 <= c <= 57) (int_text n).
Proof.
  assert (F : Forall (fun c => c = 45 \/ 48 <= c <= 57) (nat_text n)) by (pose proof (nat_text_chars n) as H; revert H; apply Forall_impl; auto).
  unfold int_text. destruct (n <? 0); auto.
Qed.
Lemma int_text_ne n : int_text n <> [].
Proof. unfold int_text. destruct (n <? 0); [discriminate|apply nat_text_ne]. Qed.
Lemma read_int_text n : read_int (int_text n) = Some n.
Proof.
  unfold int_text. pose proof (of_to n) as O. destruct (Z.ltb_spec n 0) as [L|L].
  - unfold read_int. change (45 =? 45) with true. cbv iota. pose proof (nat_text_ne n). pose proof (nat_text_read n) as R.
    destruct (nat_text n) as [|c s]; [congruence|]. rewrite R. cbn [option_map]. f_equal. destruct n; try lia. exact O.
  - pose proof (nat_text_ne n). pose proof (nat_text_read n) as R. pose proof (nat_text_chars n) as C.
    destruct (nat_text n) as [|c s]; [congruence|]. unfold read_int. inversion C; subst. replace (c =? 45) with false by lia.
    rewrite R. cbn [option_map]. f_equal. destruct n; try lia; exact O.
Qed.
Lemma held_id w : (forall c, In c w -> c <> 44 /\ c <> 59 /\ c <> 92 /\ c <> 36) -> held w = w.
Proof.
  induction w as [|c w IH]; intro H; [reflexivity|]. rewrite held_cons, IH by (intros; apply H; right; auto).
  destruct (H c ltac:(left; auto)) as (A & B & C & D). unfold dollar_digit.
  replace (c =? 44) with false by lia. replace (c =? 59) with false by lia. replace (c =? 92) with false by lia. replace (c =? 36) with false by lia. reflexivity.
Qed.
Lemma held_int n : held (int_text n) = int_text n.
Proof.
  apply held_id. intros c I. pose proof (int_text_chars n) as F. rewrite Forall_forall in F. apply F in I. lia.
Qed.
Lemma held_plain a w : held a = w -> ~ In 92 w -> a = w.
Proof.
  revert w. induction a as [|c a IH]; intros w E B; [subst; reflexivity|]. rewrite held_cons in E.
  destruct ((c =? 44) || (c =? 59) || (c =? 92) || dollar_digit c a).
  - exfalso. apply B. subst. left. reflexivity.
  - subst w. cbn [app] in *. f_equal. apply IH; auto. intro; apply B; right; auto.
Qed.
Lemma held_eqb a w : held w = w -> ~ In 92 w -> text_eqb (held a) w = text_eqb a w.
Proof.
  intros H B. destruct (text_eqb a w) eqn:E.
  - apply text_eqb_eq in E. subst. rewrite H. apply text_eqb_refl.
  - apply text_eqb_neq. intro K. apply held_plain in K; auto. subst. rewrite text_eqb_refl in E. discriminate.
Qed.
Ltac lit := first [ reflexivity | let I := fresh in intro I; cbn in I; repeat (destruct I as [I|I]; [discriminate|]); exact I ].

(** ** Records of patches *)
Lemma no_width_prefix p ws : Forall (fun w => (forall a, w <> a ++ T ",") /\ w <> T "f") p -> no_width ws -> no_width (p ++ ws).
Proof.
  intros F W. induction F as [|w p [A _] F IH]; [exact W|]. intros l' a d E. cbn [app] in E. destruct l' as [|x l'].
  - cbn [app] in E. injection E as E _. exfalso. apply (A a). exact E.
  - cbn [app] in E. injection E as _ E. apply (IH l' a d E).
Qed.
Lemma no_width_nil : no_width [].
Proof. intros [|x l'] a d E; discriminate. Qed.
Lemma int_not n : (forall a, int_text n <> a ++ T ",") /\ int_text n <> T "f".
Proof.
  pose proof (int_text_chars n) as F. rewrite Forall_forall in F. split.
  - intros a E. specialize (F 44). rewrite E in F. assert (I : In 44 (a ++ T ",")) by (apply in_app_iff; right; left; auto). apply F in I. lia.
  - intro E. specialize (F 102). rewrite E in F. assert (I : In 102 (T "f")) by (left; auto). apply F in I. lia.
Qed.
Lemma ends_comma w : last w 0 <> 44 -> forall a, w <> a ++ T ",".
Proof. intros H a ->. apply H. change (T ",") with [44]. apply last_app. Qed.
Lemma int_atom n : atom_ok (int_text n).
Proof.
  split; [apply int_text_ne|]. pose proof (int_text_chars n) as F. rewrite Forall_forall in F. repeat split; intro I; apply F in I; lia.
Qed.
Ltac lit_atom := split; [discriminate|]; split; [lit|split; lit].
Ltac lit_word := split; [apply ends_comma; cbn; discriminate|discriminate].
Definition kind_ok (k : string) : Prop := atom_ok (T k) /\ ((forall a, T k <> a ++ T ",") /\ T k <> T "f").
Lemma xy_rec k x y ws w : kind_ok k -> Forall atom_ok ws -> match w with None => no_width ws | Some d => digits d end -> rec_ok (mkRec (at_xy k x y ws) w).
Proof.
  intros [K1 K2] F W. unfold rec_ok, at_xy. cbn [r_atoms r_width]. split; [discriminate|]. split.
  - constructor; [lit_atom|]. constructor; [auto|]. constructor; [apply int_atom|]. constructor; [apply int_atom|]. exact F.
  - destruct w; auto. apply no_width_prefix; auto. constructor; [lit_word|]. constructor; [auto|]. constructor; [apply int_not|]. constructor; [apply int_not|]. constructor.
Qed.
Lemma kind_text : kind_ok "text". Proof. split; [lit_atom|lit_word]. Qed.
Lemma kind_obj : kind_ok "obj". Proof. split; [lit_atom|lit_word]. Qed.
Lemma kind_msg : kind_ok "msg". Proof. split; [lit_atom|lit_word]. Qed.
Lemma kind_restore : kind_ok "restore". Proof. split; [lit_atom|lit_word]. Qed.
Lemma wire_ok w : rec_ok (wire_rec w).
Proof.
  destruct w as [[[a o] b] i]. unfold rec_ok, wire_rec, plain_rec. cbn [r_atoms r_width]. split; [discriminate|]. split.
  - constructor; [lit_atom|]. constructor; [lit_atom|]. repeat (constructor; [apply int_atom|]). constructor.
  - rewrite <- (app_nil_r [_;_;_;_;_;_]). apply no_width_prefix; [|apply no_width_nil].
    constructor; [lit_word|]. constructor; [lit_word|]. repeat (constructor; [apply int_not|]). constructor.
Qed.
Definition sub_rec x y : rec := plain_rec [T "#N"; T "canvas"; int_text x; int_text y; T "450"; T "300"; T "sub"; T "0"].
Lemma sub_ok x y : rec_ok (sub_rec x y).
Proof.
  unfold rec_ok, sub_rec, plain_rec. cbn [r_atoms r_width]. split; [discriminate|]. split.
  - constructor; [lit_atom|]. constructor; [lit_atom|]. do 2 (constructor; [apply int_atom|]). repeat (constructor; [lit_atom|]). constructor.
  - rewrite <- (app_nil_r [_;_;_;_;_;_;_;_]). apply no_width_prefix; [|apply no_width_nil].
    constructor; [lit_word|]. constructor; [lit_word|]. do 2 (constructor; [apply int_not|]). repeat (constructor; [lit_word|]). constructor.
Qed.
Lemma word_atom w : word_ok w -> atom_ok w.
Proof.
  intros [N H]. split; auto. repeat split; intro I; apply H in I; destruct I as (B & _ & _ & K); auto; discriminate.
Qed.
Lemma comma_atom : atom_ok (T ","). Proof. lit_atom. Qed.
Lemma semi_atom : atom_ok (T ";"). Proof. lit_atom. Qed.
Lemma commas_atoms ms : messages_ok ms -> Forall atom_ok (commas (T ",") ms).
Proof.
  intro M. apply commas_all; [apply comma_atom|]. revert M. apply Forall_impl. intros m [X Y]. split; auto. revert Y. apply Forall_impl. apply word_atom.
Qed.
Lemma box_atoms_ok local remote : messages_ok local -> Forall (fun r => word_ok (fst r) /\ messages_ok (snd r)) remote -> Forall atom_ok (box_atoms local remote).
Proof.
  intros M R. unfold box_atoms. apply Forall_app. split; [apply commas_atoms; auto|].
  induction R as [|r l [R1 R2] _ IH]; [constructor|]. cbn [flat_map app]. constructor; [apply semi_atom|]. constructor; [apply word_atom; auto|].
  apply Forall_app. split; auto. apply commas_atoms; auto.
Qed.

(** ** Induction over things *)
Lemma thing_rect' (P : thing -> Prop) :
  (forall x y ws, P (Comment x y ws)) -> (forall x y ws w, P (Obj x y ws w)) -> (forall x y l r, P (Msg x y l r)) ->
  (forall x y n ts ws, Forall P ts -> P (Sub x y n (mkSheet ts ws))) -> (forall x y n ch, P (Table x y n ch)) -> forall t, P t.
Proof.
  intros A B C D E. fix IH 1. intros [x y ws|x y ws w|x y l r|x y n [ts ws]|x y n ch]; [apply A|apply B|apply C| |apply E]. apply D.
  exact ((fix go (l : list thing) : Forall P l := match l with [] => Forall_nil _ | t :: l' => Forall_cons t (IH t) (go l') end) ts).
Qed.
Lemma thing_ok_sub b x y n ts ws : thing_ok b (Sub x y n (mkSheet ts ws)) <->
  (if b then quiet (Sub x y n (mkSheet ts ws)) else True) /\ Forall atom_ok n /\ no_width n /\ hd [] n <> T "@hv_obj" /\ Forall (thing_ok true) ts.
Proof.
  cbn [thing_ok]. assert (E : (fix all l := match l with [] => True | t :: l' => thing_ok true t /\ all l' end) ts <-> Forall (thing_ok true) ts).
  { induction ts as [|t ts IH]; [split; constructor|]. split.
    - intros [H K]. constructor; auto. apply IH. auto.
    - intro H. inversion H; subst. split; auto. apply IH. auto. }
  rewrite E. tauto.
Qed.
Lemma thing_recs_sub x y n ts ws : thing_recs (Sub x y n (mkSheet ts ws)) =
  sub_rec x y :: flat_map thing_recs ts ++ map wire_rec ws ++ [plain_rec (at_xy "restore" x y (T "pd" :: n))].
Proof. reflexivity. Qed.
Lemma object_of_sub x y n ts ws : object_of (Sub x y n (mkSheet ts ws)) =
  OGraph (match n with [] => T "subpatch" | _ => join (T " ") (map held n) end) (mkGraph (map object_of ts) ws).
Proof. reflexivity. Qed.
Lemma Forall_flat {A B} (f : A -> list B) (P : B -> Prop) l : Forall (fun a => Forall P (f a)) l -> Forall P (flat_map f l).
Proof. induction 1; [constructor|]. cbn. apply Forall_app. auto. Qed.
Lemma no_width_last l a b : a <> T "f" -> no_width (l ++ [a; b]).
Proof.
  intros N l' x d E. change (l' ++ [x ++ T ","; T "f"; d]) with (l' ++ [x ++ T ","] ++ [T "f"; d]) in E. rewrite app_assoc in E.
  change [a; b] with ([a] ++ [b]) in E. change [T "f"; d] with ([T "f"] ++ [d]) in E. rewrite !app_assoc in E. apply snoc_inj in E as [E _]. apply snoc_inj in E as [_ E]. congruence.
Qed.
Definition coords_rec : rec := plain_rec [T "#X"; T "coords"; T "0"; T "1"; T "100"; T "-1"; T "200"; T "140"; T "1"].
Definition array_rec n size : rec := plain_rec [T "#X"; T "array"; n; int_text size; T "float"; T "3"].
Lemma thing_recs_table x y n ch : thing_recs (Table x y n ch) =
  sub_rec x y :: array_rec n (zlen (List.concat ch)) :: values_recs 0 ch ++ [coords_rec; plain_rec (at_xy "restore" x y [T "graph"])].
Proof. reflexivity. Qed.
Lemma coords_ok : rec_ok coords_rec.
Proof.
  unfold rec_ok, coords_rec, plain_rec. cbn [r_atoms r_width]. split; [discriminate|]. split.
  - repeat (constructor; [lit_atom|]). constructor.
  - apply (no_width_last [_;_;_;_;_;_;_]). discriminate.
Qed.
Lemma array_ok n size : atom_ok n -> rec_ok (array_rec n size).
Proof.
  intro A. unfold rec_ok, array_rec, plain_rec. cbn [r_atoms r_width]. split; [discriminate|]. split.
  - do 2 (constructor; [lit_atom|]). constructor; auto. constructor; [apply int_atom|]. repeat (constructor; [lit_atom|]). constructor.
  - apply (no_width_last [_;_;_;_]). discriminate.
Qed.
Lemma values_ok ch : Forall (fun l => Forall atom_ok l /\ no_width l) ch -> forall i, Forall rec_ok (values_recs i ch).
Proof.
  induction 1 as [|l ch [A W] _ IH]; intro i; [constructor|]. cbn [values_recs]. constructor; auto. unfold rec_ok, plain_rec. cbn [r_atoms r_width].
  split; [discriminate|]. split.
  - constructor; [lit_atom|]. constructor; [apply int_atom|]. exact A.
  - apply no_width_prefix; auto. constructor; [lit_word|]. constructor; [apply int_not|constructor].
Qed.
Lemma thing_recs_ok t : forall b, thing_ok b t -> Forall rec_ok (thing_recs t).
Proof.
  induction t as [x y ws|x y ws w|x y l r|x y n ts ws IH|x y n ch] using thing_rect'; intros b H.
  - destruct H as (_ & F & W). constructor; [|constructor]. apply xy_rec; auto. apply kind_text.
  - destruct H as (_ & F & _ & W). constructor; [|constructor]. apply xy_rec; auto. apply kind_obj.
  - destruct H as (_ & N & M & R & W). constructor; [|constructor]. apply xy_rec; auto. apply kind_msg. apply box_atoms_ok; auto.
  - apply thing_ok_sub in H as (_ & F & W & Hn & K). rewrite thing_recs_sub. constructor; [apply sub_ok|]. apply Forall_app. split.
    + apply Forall_flat. rewrite Forall_forall in IH, K |- *. intros t I. apply (IH t I true). auto.
    + apply Forall_app. split; [apply Forall_map'; intros; apply wire_ok|]. constructor; [|constructor].
      apply xy_rec; [apply kind_restore| |].
      * constructor; auto. lit_atom.
      * change (no_width ([T "pd"] ++ n)). apply no_width_prefix; auto. constructor; [lit_word|constructor].
  - destruct H as (_ & A & _ & V). rewrite thing_recs_table. constructor; [apply sub_ok|]. constructor; [apply array_ok; auto|]. apply Forall_app. split; [apply values_ok; auto|].
    constructor; [apply coords_ok|]. constructor; [|constructor]. apply xy_rec; [apply kind_restore| |].
    + constructor; [lit_atom|constructor].
    + change (no_width ([T "graph"] ++ [])). apply no_width_prefix; [|apply no_width_nil]. constructor; [lit_word|constructor].
Qed.
Lemma sheet_recs_ok s : sheet_ok s -> Forall rec_ok (sheet_recs s).
Proof.
  destruct s as [ts ws]. unfold sheet_ok, sheet_recs. cbn [things]. intro H. apply Forall_app. split.
  - apply Forall_flat. revert H. apply Forall_impl. intros t. apply thing_recs_ok.
  - apply Forall_map'. intros; apply wire_ok.
Qed.
Lemma canvas_ok : rec_ok canvas_rec.
Proof.
  unfold rec_ok, canvas_rec, plain_rec. cbn [r_atoms r_width]. split; [discriminate|]. split.
  - repeat (constructor; [lit_atom|]). constructor.
  - rewrite <- (app_nil_r [_;_;_;_;_;_;_]). apply no_width_prefix; [|apply no_width_nil]. repeat (constructor; [lit_word|]). constructor.
Qed.
