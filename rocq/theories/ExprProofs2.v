(** The parser reads every expression as written. *)
From Verif Require Import ExprSpec ArgsProofs ExprProofs.
From Coq Require Import String List ZifyBool.
Import ListNotations.
Local Open Scope list_scope.
Local Open Scope Z_scope.

(** ** Characters *)
Lemma is_ws_blank c : is_ws c = true <-> (c = 32 \/ c = 9 \/ c = 10 \/ c = 13).
Proof. unfold is_ws. lia. Qed.
Lemma skipws_blank b s : blank b -> skipws (b ++ s) = skipws s.
Proof. induction 1 as [| c b H _ IH]; cbn [app skipws]; [reflexivity|]. apply is_ws_blank in H as ->. exact IH. Qed.
Lemma skipws_non c s : is_ws c = false -> skipws (c :: s) = c :: s.
Proof. intros H; cbn [skipws]; now rewrite H. Qed.
Lemma lit_blank b t s : blank b -> lit t (b ++ s) = lit t s.
Proof. intros B; unfold lit. now rewrite skipws_blank. Qed.
Lemma choice_blank b ts s : blank b -> choice ts (b ++ s) = choice ts s.
Proof. intros B; induction ts as [| t ts IH]; cbn [choice]; [reflexivity|]. rewrite lit_blank, IH by auto. reflexivity. Qed.
Lemma number_blank b s : blank b -> number (b ++ s) = number s.
Proof. intros B; unfold number. now rewrite skipws_blank. Qed.
Lemma var_blank b s : blank b -> var (b ++ s) = var s.
Proof. intros B; unfold var. now rewrite skipws_blank. Qed.
Lemma f_name_blank b s : blank b -> f_name (b ++ s) = f_name s.
Proof. intros B; unfold f_name. now rewrite skipws_blank. Qed.

(** ** The parser as relations: enough fuel gives the result *)
Definition LevelR (k : nat) (s : text) (r : option (ast * text)) : Prop := exists n, forall m, (n <= m)%nat -> plevel m k s = Some r.
Definition LoopR (k : nat) (a : ast) (s : text) (r : option (ast * text)) : Prop := exists n, forall m, (n <= m)%nat -> ploop m k a s = Some r.
Definition FuncR (s : text) (r : option (ast * text)) : Prop := exists n, forall m, (n <= m)%nat -> pfunc m s = Some r.
Definition SeqR (j : nat) (s : text) (r : option (list ast * text)) : Prop := exists n, forall m, (n <= m)%nat -> pseq m j s = Some r.
Definition GroupR (s : text) (r : option (ast * text)) : Prop := exists n, forall m, (n <= m)%nat -> pgroup m s = Some r.
(** The operators of binary level [k]. *)
Definition ops (k : nat) : list text := nth k grammar_levels [].

Lemma level_some k : (k <= 10)%nat -> nth_error grammar_levels k = Some (ops k).
Proof. intros H. unfold ops. apply nth_error_nth'. cbn; lia. Qed.
Lemma level_none k : (11 <= k)%nat -> nth_error grammar_levels k = None.
Proof. intros H. apply nth_error_None. cbn; lia. Qed.

Ltac fuel n := let m := fresh "m" in exists (S n); intros m ?; destruct m as [| m]; [lia|].
Lemma LevelR_bin k s a s1 r : (k <= 10)%nat -> LevelR (S k) s (Some (a, s1)) -> LoopR k a s1 r -> LevelR k s r.
Proof.
  intros K [n1 H1] [n2 H2]. fuel (n1 + n2)%nat. cbn [plevel]. rewrite level_some by lia.
  rewrite H1 by lia. now rewrite H2 by lia.
Qed.
Lemma LevelR_bin_none k s : (k <= 10)%nat -> LevelR (S k) s None -> LevelR k s None.
Proof. intros K [n1 H1]. fuel n1. cbn [plevel]. rewrite level_some by lia. now rewrite H1 by lia. Qed.
Lemma LoopR_stop k a s : choice (ops k) s = None -> LoopR k a s (Some (a, s)).
Proof. intros C. fuel O. cbn [ploop]. fold (ops k). now rewrite C. Qed.
Lemma LoopR_stop2 k a s op s1 : choice (ops k) s = Some (op, s1) -> LevelR (S k) s1 None -> LoopR k a s (Some (a, s)).
Proof. intros C [n H]. fuel n. cbn [ploop]. fold (ops k). rewrite C. now rewrite H by lia. Qed.
Lemma LoopR_step k a s op s1 b s2 r : choice (ops k) s = Some (op, s1) -> LevelR (S k) s1 (Some (b, s2)) ->
  LoopR k (Node op [a; b]) s2 r -> LoopR k a s r.
Proof. intros C [n H] [n2 H2]. fuel (n + n2)%nat. cbn [ploop]. fold (ops k). rewrite C. rewrite H by lia. now rewrite H2 by lia. Qed.
Lemma LevelR_unary s op s1 a s2 : choice grammar_unary s = Some (op, s1) -> LevelR 11 s1 (Some (a, s2)) -> LevelR 11 s (Some (Node op [a], s2)).
Proof. intros C [n H]. fuel n. cbn [plevel]. rewrite level_none by lia. cbn [Nat.eqb]. rewrite C. now rewrite H by lia. Qed.
Lemma LevelR_unary_none s r : choice grammar_unary s = None -> LevelR 12 s r -> LevelR 11 s r.
Proof. intros C [n H]. fuel n. cbn [plevel]. rewrite level_none by lia. cbn [Nat.eqb]. rewrite C. now rewrite H by lia. Qed.
Lemma LevelR_number s r : number s = Some r -> LevelR 12 s (Some r).
Proof. intros C. fuel O. cbn [plevel]. rewrite level_none by lia. cbn [Nat.eqb]. now rewrite C. Qed.
Lemma LevelR_var s r : number s = None -> var s = Some r -> LevelR 12 s (Some r).
Proof. intros C D. fuel O. cbn [plevel]. rewrite level_none by lia. cbn [Nat.eqb]. now rewrite C, D. Qed.
Lemma LevelR_func s r : number s = None -> var s = None -> FuncR s (Some r) -> LevelR 12 s (Some r).
Proof. intros C D [n H]. fuel n. cbn [plevel]. rewrite level_none by lia. cbn [Nat.eqb]. rewrite C, D. now rewrite H by lia. Qed.
Lemma LevelR_group s r : number s = None -> var s = None -> FuncR s None -> GroupR s r -> LevelR 12 s r.
Proof. intros C D [n H] [n2 H2]. fuel (n + n2)%nat. cbn [plevel]. rewrite level_none by lia. cbn [Nat.eqb]. rewrite C, D. rewrite H by lia. now rewrite H2 by lia. Qed.
Lemma GroupR_some s s1 a s2 r : lit (T "(") s = Some s1 -> LevelR 0 s1 (Some (a, s2)) -> lit (T ")") s2 = Some r -> GroupR s (Some (a, r)).
Proof. intros C [n H] D. fuel n. cbn [pgroup]. rewrite C. rewrite H by lia. now rewrite D. Qed.
Lemma GroupR_none s : lit (T "(") s = None -> GroupR s None.
Proof. intros C. fuel O. cbn [pgroup]. now rewrite C. Qed.
Lemma FuncR_none s : f_name s = None -> FuncR s None.
Proof. intros C. fuel O. cbn [pfunc]. now rewrite C. Qed.
Lemma FuncR_some s f s1 s2 j args r : f_name s = Some (f, s1) -> lit (T "(") s1 = Some s2 -> (j <= 2)%nat ->
  (forall i, (i < j)%nat -> SeqR i s2 None) -> SeqR j s2 (Some (args, r)) -> FuncR s (Some (Node f args, r)).
Proof.
  intros C D J N [n H].
  assert (exists k, forall m, (k <= m)%nat -> forall i, (i < j)%nat -> pseq m i s2 = Some None) as [k K].
  { clear H. induction j as [| j IH]; [exists O; intros; lia|].
    destruct IH as [k K]; [lia | intros; apply N; lia |]. destruct (N j (Nat.lt_succ_diag_r j)) as [k2 K2].
    exists (k + k2)%nat. intros m M i I. destruct (Nat.eq_dec i j) as [-> | NE]; [apply K2; lia | apply K; lia]. }
  fuel (n + k)%nat. cbn [pfunc]. rewrite C, D.
  destruct j as [| [| [| j]]]; [| | | lia].
  - now rewrite H by lia.
  - rewrite (K m) by lia. now rewrite H by lia.
  - rewrite !(K m) by lia. now rewrite H by lia.
Qed.
Lemma SeqR_last s a s1 r : LevelR 0 s (Some (a, s1)) -> lit (T ")") s1 = Some r -> SeqR 0 s (Some ([a], r)).
Proof. intros [n H] D. fuel n. cbn [pseq]. rewrite H by lia. now rewrite D. Qed.
Lemma SeqR_last_none s a s1 : LevelR 0 s (Some (a, s1)) -> lit (T ")") s1 = None -> SeqR 0 s None.
Proof. intros [n H] D. fuel n. cbn [pseq]. rewrite H by lia. now rewrite D. Qed.
Lemma SeqR_more j s a s1 s2 l r : LevelR 0 s (Some (a, s1)) -> lit COMMA s1 = Some s2 -> SeqR j s2 (Some (l, r)) -> SeqR (S j) s (Some (a :: l, r)).
Proof. intros [n H] D [n2 H2]. fuel (n + n2)%nat. cbn [pseq]. rewrite H by lia. change [92; 44] with COMMA. rewrite D. now rewrite H2 by lia. Qed.
Lemma SeqR_more_none j s a s1 s2 : LevelR 0 s (Some (a, s1)) -> lit COMMA s1 = Some s2 -> SeqR j s2 None -> SeqR (S j) s None.
Proof. intros [n H] D [n2 H2]. fuel (n + n2)%nat. cbn [pseq]. rewrite H by lia. change [92; 44] with COMMA. rewrite D. now rewrite H2 by lia. Qed.

(** ** Text with which no expression starts *)
Definition bad_start (s : text) : Prop := match s with c :: _ => c = 61 \/ c = 124 \/ c = 38 | [] => False end.
Lemma f_name_nomatch c s : is_ws c = false -> forallb (fun f => match f with x :: _ => negb (x =? c) | [] => false end) grammar_functions = true ->
  f_name (c :: s) = None.
Proof.
  intros W F. unfold f_name. rewrite skipws_non by exact W. induction grammar_functions as [| f fs IH]; [reflexivity|].
  cbn [forallb] in F. apply andb_prop in F as [F1 F2]. cbn [f_name_in]. destruct f as [| x f]; [discriminate|].
  cbn [app starts]. destruct (x =? c); [discriminate|]. cbn [andb]. now apply IH.
Qed.
Lemma bad_prim s : bad_start s -> LevelR 12 s None.
Proof.
  destruct s as [| c s]; [intros []|]. intros H. cbn [bad_start] in H.
  apply LevelR_group.
  - unfold number. destruct H as [-> | [-> | ->]]; reflexivity.
  - unfold var. destruct H as [-> | [-> | ->]]; cbn; destruct s; reflexivity.
  - apply FuncR_none. destruct H as [-> | [-> | ->]]; apply f_name_nomatch; reflexivity.
  - apply GroupR_none. destruct H as [-> | [-> | ->]]; reflexivity.
Qed.
Lemma bad_unary s : bad_start s -> LevelR 11 s None.
Proof.
  intros H. apply LevelR_unary_none; [| now apply bad_prim].
  destruct s as [| c s]; [destruct H|]. destruct H as [-> | [-> | ->]]; reflexivity.
Qed.
Lemma bad_level s : bad_start s -> forall k, (k <= 11)%nat -> LevelR k s None.
Proof.
  intros H k K. remember (11 - k)%nat as d eqn:D. revert k K D; induction d as [| d IH]; intros k K D.
  - replace k with 11%nat by lia. now apply bad_unary.
  - apply LevelR_bin_none; [lia|]. apply IH; lia.
Qed.

(** ** Text that ends an expression of level [k] *)
Definition stops (j : nat) (rest : text) : Prop :=
  choice (ops j) rest = None \/ exists op s1, choice (ops j) rest = Some (op, s1) /\ bad_start s1.
Definition no_digit (rest : text) : Prop := match rest with c :: _ => is_digit c = false /\ c <> 46 | [] => True end.
Definition follow (k : nat) (rest : text) : Prop := (forall j, (k <= j <= 10)%nat -> stops j rest) /\ no_digit rest.
Lemma follow_mono k k' rest : (k <= k')%nat -> follow k rest -> follow k' rest.
Proof. intros L [A B]; split; [intros; apply A; lia | exact B]. Qed.
Lemma follow_stop k a rest : (k <= 10)%nat -> follow k rest -> LoopR k a rest (Some (a, rest)).
Proof.
  intros K [A _]. destruct (A k) as [H | (op & s1 & H & B)]; [lia | now apply LoopR_stop |].
  apply (LoopR_stop2 k a rest op s1 H). apply bad_level; [exact B | lia].
Qed.
(** What may come directly behind an operator. *)
Definition no_op (s : text) : Prop := match s with c :: _ => c <> 60 /\ c <> 61 /\ c <> 62 /\ c <> 124 /\ c <> 38 | [] => True end.
Lemma no_digit_blank b s : blank b -> no_digit s -> no_digit (b ++ s).
Proof. intros B H. destruct B as [| c b C]; [exact H|]. cbn [app no_digit]. unfold is_digit. lia. Qed.
Lemma stops_blank j b s : blank b -> stops j s -> stops j (b ++ s).
Proof. intros B H. unfold stops. rewrite choice_blank by exact B. exact H. Qed.
Lemma follow_blank k b s : blank b -> follow k s -> follow k (b ++ s).
Proof. intros B [A D]. split; [intros; apply stops_blank; auto | now apply no_digit_blank]. Qed.
Ltac each_level j H := do 11 (destruct j as [| j]; [| ]); [.. | exfalso; lia].
Lemma follow_close k rest : follow k (41 :: rest).
Proof. split; [| split; [reflexivity | discriminate]]. intros j J. left. do 11 (destruct j as [| j]; [reflexivity|]). lia. Qed.
Lemma follow_comma k rest : follow k (COMMA ++ rest).
Proof. split; [| split; [reflexivity | discriminate]]. intros j J. left. do 11 (destruct j as [| j]; [reflexivity|]). lia. Qed.
Lemma follow_nil k : follow k [].
Proof. split; [| exact I]. intros j J. left. do 11 (destruct j as [| j]; [reflexivity|]). lia. Qed.
Lemma follow_op k op t : (k <= 10)%nat -> In op (ops k) -> no_op t -> follow (S k) (op ++ t).
Proof.
  intros K I N. split.
  - intros j J.
    do 11 (destruct k as [| k]; [vm_compute in I;
      repeat (destruct I as [<- | I]; [
        do 11 (destruct j as [| j]; [first [exfalso; lia | left; reflexivity | right; eexists _, _; split; [reflexivity | first [left; reflexivity | right; left; reflexivity | right; right; reflexivity]]
          | left; destruct t as [| c t]; [reflexivity|]; cbn [no_op] in N; destruct c as [| p | p]; try reflexivity; repeat (destruct p as [p | p |]; try reflexivity); exfalso; lia] |]); exfalso; lia |]); destruct I|]).
    lia.
  - do 11 (destruct k as [| k]; [vm_compute in I;
      repeat (destruct I as [<- | I]; [split; [reflexivity | discriminate]|]); destruct I |]). lia.
Qed.
Lemma choice_op k op t : (k <= 10)%nat -> In op (ops k) -> choice (ops k) (op ++ t) = Some (op, t).
Proof.
  intros K I. do 11 (destruct k as [| k]; [vm_compute in I;
      repeat (destruct I as [<- | I]; [reflexivity|]); destruct I |]). lia.
Qed.

(** ** Tokens *)
Lemma digits_span d rest : digits d -> no_digit rest -> span_digits (d ++ rest) = (d, rest).
Proof.
  intros [_ D] N. induction D as [| c d C D IH]; cbn [app].
  - destruct rest as [| c rest]; [reflexivity|]. cbn [span_digits]. cbn in N. now destruct N as [-> _].
  - cbn [span_digits]. replace (is_digit c) with true by (unfold is_digit; lia). now rewrite IH.
Qed.
Lemma digits_head d s : digits d -> exists c d', d = c :: d' /\ is_digit c = true /\ is_ws c = false /\ skipws (d ++ s) = d ++ s.
Proof.
  intros [NE D]. destruct D as [| c d C D]; [congruence|]. exists c, d. split; [reflexivity|].
  assert (is_ws c = false) by (unfold is_ws; lia). split; [unfold is_digit; lia|]. split; [assumption|]. now apply skipws_non.
Qed.
Lemma number_int d rest : digits d -> no_digit rest -> number (d ++ rest) = Some (Num_i d, rest).
Proof.
  intros D N. destruct (digits_head d rest D) as (c & d' & E & _ & _ & SK). unfold number. rewrite SK, digits_span by auto.
  rewrite E. cbv iota zeta beta. rewrite <- E. destruct rest as [| x rest]; [reflexivity|]. cbn in N. now replace (x =? 46) with false by lia.
Qed.
Lemma number_float d d' rest : digits d -> digits d' -> no_digit rest ->
  number (d ++ T "." ++ d' ++ rest) = Some (Num_f (d ++ T "." ++ d'), rest).
Proof.
  intros D D' N. change (T ".") with [46]. destruct (digits_head d ([46] ++ d' ++ rest) D) as (c & d0 & E & _ & _ & SK).
  unfold number. rewrite SK.
  assert (SP : span_digits (d ++ [46] ++ d' ++ rest) = (d, [46] ++ d' ++ rest)).
  { clear - D. destruct D as [_ D]. induction D as [| x d X D IH]; [reflexivity|]. cbn [app span_digits].
    replace (is_digit x) with true by (unfold is_digit; lia). cbn [app] in IH. now rewrite IH. }
  rewrite SP. rewrite E. cbn [app]. cbv iota zeta beta. rewrite Z.eqb_refl.
  rewrite digits_span by auto. destruct (digits_head d' rest D') as (c' & d1 & E' & _). rewrite E'. reflexivity.
Qed.
Lemma number_no c s : is_ws c = false -> is_digit c = false -> number (c :: s) = None.
Proof. intros W D. unfold number. rewrite skipws_non by exact W. cbn [span_digits]. now rewrite D. Qed.
Lemma var_no c s : is_ws c = false -> c <> 36 -> var (c :: s) = None.
Proof. intros W D. unfold var. rewrite skipws_non by exact W. destruct s; [reflexivity|]. change DOLLAR with 36. now replace (c =? 36) with false by lia. Qed.
Lemma var_yes v rest : variable v -> no_digit rest -> number (v ++ rest) = None /\ var (v ++ rest) = Some (Var v, rest).
Proof.
  intros (t & d & -> & I & D) N. cbn [app]. split; [now apply number_no|].
  unfold var. rewrite skipws_non by reflexivity. change (DOLLAR =? DOLLAR) with true.
  assert (is_vtype t = true) as -> by (unfold is_vtype; cbn [In] in I; lia). cbn [andb].
  rewrite digits_span by auto. destruct (digits_head d [] D) as (c & d' & -> & _). reflexivity.
Qed.
Definition name_ok (f : text) : bool :=
  match f with
  | c :: _ => negb (is_ws c) && negb (is_digit c) && negb (c =? 36) && negb (c =? 45) && negb (c =? 126) && negb (c =? 33) && (97 <=? c) && (c <=? 122)
  | [] => false end && forallb (fun c => negb (c =? 40)) f.
Lemma names_ok : forall f, In f functions -> In f grammar_functions /\ name_ok f = true.
Proof.
  assert (H : forallb (fun f => existsb (text_eqb f) grammar_functions && name_ok f) functions = true) by (vm_compute; reflexivity).
  intros f I. pose proof (proj1 (forallb_forall _ _) H f I) as E. cbv beta in E. apply andb_prop in E as [E1 E2]. split; [|exact E2].
  apply existsb_exists in E1 as (g & G & Q). apply text_eqb_eq in Q. now subst.
Qed.
Lemma names_ok' : forallb (fun f => forallb (fun c => negb (c =? 40)) f) grammar_functions = true.
Proof. vm_compute; reflexivity. Qed.
Lemma starts_paren f : forall g t, forallb (fun c => negb (c =? 40)) f = true -> forallb (fun c => negb (c =? 40)) g = true ->
  starts (g ++ [40]) (f ++ 40 :: t) = true -> g = f.
Proof.
  induction f as [| x f IH]; intros [| y g] t F G S; cbn [app starts forallb] in *; try reflexivity; try lia.
  f_equal; [lia|]. apply (IH g t); lia.
Qed.
Lemma starts_self f t : starts (f ++ [40]) (f ++ 40 :: t) = true.
Proof. apply starts_prefix. exists t. now rewrite <- app_assoc. Qed.
Lemma skipn_self {A} (a b : list A) : skipn (length a) (a ++ b) = b.
Proof. now rewrite skipn_app, Nat.sub_diag, skipn_all. Qed.
Lemma f_name_yes f t : In f functions -> f_name (f ++ 40 :: t) = Some (f, 40 :: t).
Proof.
  intros I. destruct (names_ok f I) as [G N]. unfold name_ok in N. apply andb_prop in N as [N1 N2].
  unfold f_name. replace (skipws (f ++ 40 :: t)) with (f ++ 40 :: t).
  2:{ destruct f as [| c f]; [discriminate|]. cbn [app]. symmetry. apply skipws_non. lia. }
  pose proof names_ok' as A. revert G A. induction grammar_functions as [| g fs IH]; intros G A; [destruct G|].
  cbn [forallb] in A. apply andb_prop in A as [A1 A2]. cbn [f_name_in].
  destruct (starts (g ++ [40]) (f ++ 40 :: t)) eqn:S.
  - apply starts_paren in S; auto. subst. now rewrite skipn_self.
  - destruct G as [-> | G]; [now rewrite starts_self in S|]. auto.
Qed.

(** ** Every way of writing an expression *)
Definition ml (k : nat) : nat := match k with 7 => 8 | 8 => 9 | 9 => 10 | 10 => 11 | 11 => 12 | _ => k end%nat.
Definition reads (k : nat) (e : ast) (s : text) : Prop :=
  (k <= 11)%nat /\
  ((ml k <= 10)%nat -> forall rest r, follow (S (ml k)) rest -> LoopR (ml k) e rest r -> LevelR (ml k) (s ++ rest) r) /\
  ((11 <= ml k)%nat -> forall rest, no_digit rest -> LevelR (ml k) (s ++ rest) (Some (e, rest))) /\
  (forall rest, no_op (s ++ rest)) /\ (k = PRIMARY -> forall rest, choice grammar_unary (s ++ rest) = None).
Lemma reads_full k e s rest : reads k e s -> follow (ml k) rest -> LevelR (ml k) (s ++ rest) (Some (e, rest)).
Proof.
  intros (K & A & B & _) F. destruct (le_lt_dec (ml k) 10) as [L | L].
  - apply A; [exact L | now apply (follow_mono (ml k)); [lia|] | now apply follow_stop].
  - apply B; [lia | now destruct F].
Qed.
Lemma climb K K' x e rest r : (K < K' <= 11)%nat -> LevelR K' x (Some (e, rest)) -> follow (S K) rest -> LoopR K e rest r -> LevelR K x r.
Proof.
  intros L. remember (K' - K)%nat as d eqn:D. revert K K' L D r. induction d as [| d IH]; intros K K' L D r H F R; [lia|].
  destruct (Nat.eq_dec K' (S K)) as [-> | NE]; [apply (LevelR_bin K x e rest r); auto; lia|].
  apply (LevelR_bin K x e rest r); [lia | | exact R].
  apply (IH (S K) K'); try lia; auto; [apply (follow_mono (S K)); auto; lia | apply follow_stop; auto; lia].
Qed.
Definition reads_args (args : list ast) (s : text) : Prop :=
  args <> [] /\ forall b t, blank b ->
    (forall i, (i < length args - 1)%nat -> SeqR i (s ++ b ++ 41 :: t) None) /\
    SeqR (length args - 1) (s ++ b ++ 41 :: t) (Some (args, t)).
Lemma lit_close b t : blank b -> lit (T ")") (b ++ 41 :: t) = Some t.
Proof. intros B. rewrite lit_blank by exact B. reflexivity. Qed.
Lemma unary_no c s : is_ws c = false -> c <> 45 -> c <> 126 -> c <> 33 -> choice grammar_unary (c :: s) = None.
Proof.
  intros W A B C. change grammar_unary with [[45]; [126]; [33]]. cbn [choice]. unfold lit. rewrite skipws_non by exact W.
  cbn [starts]. replace (45 =? c) with false by lia. replace (126 =? c) with false by lia. replace (33 =? c) with false by lia. reflexivity.
Qed.
Lemma unary_yes op s : In op unary_operators -> choice grammar_unary (op ++ s) = Some (op, s).
Proof. intros I. cbn [unary_operators In] in I. repeat (destruct I as [<- | I]; [reflexivity|]). destruct I. Qed.
Lemma no_op_blank b s : blank b -> no_op s -> no_op (b ++ s).
Proof. intros B H. destruct B as [| c b C]; [exact H|]. cbn [app no_op]. lia. Qed.
Lemma no_op_char c s : c <> 60 -> c <> 61 -> c <> 62 -> c <> 124 -> c <> 38 -> no_op (c :: s).
Proof. cbn [no_op]; tauto. Qed.
Lemma LevelR_blank_12 b s r : blank b -> LevelR 12 s r -> LevelR 12 (b ++ s) r.
Proof.
  intros B [n H]. fuel n. specialize (H (S m) ltac:(lia)). cbn [plevel] in *. rewrite level_none in * by lia. cbn [Nat.eqb] in *.
  rewrite number_blank, var_blank by exact B.
  assert (pfunc m (b ++ s) = pfunc m s) as ->. { destruct m; [reflexivity|]. cbn [pfunc]. now rewrite f_name_blank. }
  assert (pgroup m (b ++ s) = pgroup m s) as ->. { destruct m; [reflexivity|]. cbn [pgroup]. now rewrite lit_blank. }
  exact H.
Qed.
Lemma prim_reads e s b : blank b -> (exists c s', s = c :: s' /\ is_ws c = false /\ c <> 45 /\ c <> 126 /\ c <> 33 /\ (forall x, no_op (c :: x))) ->
  (forall rest, no_digit rest -> LevelR 12 (s ++ rest) (Some (e, rest))) -> reads PRIMARY e (b ++ s).
Proof.
  intros B (c & s' & -> & W & C1 & C2 & C3 & C4) H. change PRIMARY with 11%nat. unfold reads. cbn [ml].
  split; [lia|]. split; [intros; lia|]. split; [|split].
  - intros _ rest N. rewrite <- app_assoc. apply LevelR_blank_12; auto.
  - intros rest. rewrite <- app_assoc. apply no_op_blank; [exact B|]. apply C4.
  - intros _ rest. rewrite <- app_assoc, choice_blank by exact B. cbn [app]. now apply unary_no.
Qed.
Lemma c_level_ops k l op : nth_error c_levels k = Some l -> In op l ->
  (k <= 9)%nat /\ (k <> CMP -> In op (ops (ml k)) /\ ml (S k) = S (ml k)) /\ (k = CMP -> In op (ops 6) \/ In op (ops 7)).
Proof.
  intros E I. unfold CMP.
  do 10 (destruct k as [| k]; [cbn in E; injection E as <-; vm_compute in I; split; [lia | split; [intros NE; first [exfalso; apply NE; reflexivity | split; [vm_compute; tauto | reflexivity]] | intros Q; first [discriminate Q | vm_compute; tauto]]] |]).
  destruct k; discriminate E.
Qed.

Scheme writes_mut := Minimality for writes Sort Prop
  with writes_args_mut := Minimality for writes_args Sort Prop.
Combined Scheme writes_both from writes_mut, writes_args_mut.

Lemma writes_reads : (forall k e s, writes k e s -> reads k e s) /\ (forall l s, writes_args l s -> reads_args l s).
Proof.
  apply writes_both.
  - intros b d B D. apply prim_reads; [exact B | | intros rest N; apply LevelR_number; now apply number_int].
    destruct (digits_head d [] D) as (c & d' & -> & DC & W & _). exists c, d'. unfold is_digit in DC.
    split; [reflexivity|]. split; [exact W|]. split; [lia|]. split; [lia|]. split; [lia|]. intros; apply no_op_char; lia.
  - intros b d d' B D D'. apply prim_reads; [exact B | |].
    + destruct (digits_head d [] D) as (c & d1 & -> & DC & W & _). exists c, (d1 ++ T "." ++ d'). unfold is_digit in DC.
      split; [reflexivity|]. split; [exact W|]. split; [lia|]. split; [lia|]. split; [lia|]. intros; apply no_op_char; lia.
    + intros rest N. rewrite <- !app_assoc. apply LevelR_number. now apply number_float.
  - intros b v B V. apply prim_reads; [exact B | |].
    + destruct V as (t & d & -> & _ & _). exists DOLLAR, (t :: d). unfold DOLLAR.
      split; [reflexivity|]. split; [reflexivity|]. split; [lia|]. split; [lia|]. split; [lia|]. intros; apply no_op_char; lia.
    + intros rest N. destruct (var_yes v rest V N). now apply LevelR_var.
  - intros b b' e s B B' _ IH. apply prim_reads; [exact B | |].
    + exists 40, (s ++ b' ++ T ")").
      split; [reflexivity|]. split; [reflexivity|]. split; [lia|]. split; [lia|]. split; [lia|]. intros; apply no_op_char; lia.
    + intros rest N. change (T "(") with [40]. change (T ")") with [41]. rewrite <- !app_assoc. cbn [app].
      apply LevelR_group; [now apply number_no | now apply var_no | |].
      * apply FuncR_none. apply f_name_nomatch; [reflexivity | vm_compute; reflexivity].
      * apply (GroupR_some _ (s ++ b' ++ 41 :: rest) e (b' ++ 41 :: rest) rest); [reflexivity | | now apply lit_close].
        apply (reads_full 0); [exact IH|]. apply follow_blank; [exact B' | apply follow_close].
  - intros b b' f args s B B' F L _ [NE IH]. apply prim_reads; [exact B | |].
    + destruct (names_ok f F) as [_ NK]. unfold name_ok in NK. destruct f as [| c f]; [discriminate|].
      exists c, (f ++ T "(" ++ s ++ b' ++ T ")").
      split; [reflexivity|]. split; [lia|]. split; [lia|]. split; [lia|]. split; [lia|]. intros; apply no_op_char; lia.
    + intros rest N. change (T "(") with [40]. change (T ")") with [41]. rewrite <- !app_assoc. cbn [app].
      destruct (names_ok f F) as [_ NK]. unfold name_ok in NK.
      apply LevelR_func.
      * destruct f as [| c f]; [discriminate|]. cbn [app]. apply number_no; lia.
      * destruct f as [| c f]; [discriminate|]. cbn [app]. apply var_no; lia.
      * destruct (IH b' rest B') as [I1 I2].
        apply (FuncR_some _ f (40 :: s ++ b' ++ 41 :: rest) (s ++ b' ++ 41 :: rest) (length args - 1)); auto; [now apply f_name_yes | lia].
  - intros b op e s B I _ IH. change UNARY with 10%nat in *. unfold reads. cbn [ml].
    split; [lia|]. split; [intros; lia|]. split; [|split; [|intros; discriminate]].
    + intros _ rest N. rewrite <- !app_assoc. apply (LevelR_unary _ op (s ++ rest) e rest).
      * rewrite choice_blank by exact B. now apply unary_yes.
      * destruct IH as (_ & _ & H & _). apply H; [cbn [ml]; lia | exact N].
    + intros rest. rewrite <- !app_assoc. apply no_op_blank; [exact B|]. cbn [unary_operators In] in I.
      repeat (destruct I as [<- | I]; [apply no_op_char; discriminate|]). destruct I.
  - intros k b op l e1 s1 e2 s2 E I B _ IH1 _ IH2. destruct (c_level_ops k l op E I) as (K & C1 & C2).
    assert (ML : (ml k <= 10)%nat) by (do 10 (destruct k as [| k]; [cbn; lia|]); lia).
    unfold reads. split; [lia|]. split; [|split; [intros; lia|split]].
    2:{ intros rest. rewrite <- !app_assoc. now destruct IH1 as (_ & _ & _ & H & _). }
    2:{ intros ->. exfalso. unfold PRIMARY in K. lia. }
    intros _ rest r F R. rewrite <- !app_assoc.
    assert (N2 : no_op (s2 ++ rest)) by (now destruct IH2 as (_ & _ & _ & H & _)).
    destruct (Nat.eqb_spec k CMP) as [-> | NK].
    + change (ml CMP) with 6%nat in *. change (S CMP) with 7%nat in *.
      assert (R2 : LevelR 8 (s2 ++ rest) (Some (e2, rest))) by (apply (reads_full 7); [exact IH2 | apply (follow_mono 7); [cbn; lia | exact F]]).
      destruct (C2 eq_refl) as [J | J].
      * assert (F6 : follow 7 (b ++ op ++ s2 ++ rest)) by (apply follow_blank; [exact B|]; apply (follow_op 6); [lia | exact J | exact N2]).
        apply (climb 6 8 _ e1 (b ++ op ++ s2 ++ rest)); [lia | | exact F6 |].
        { apply (reads_full 7); [exact IH1 | apply (follow_mono 7); [cbn; lia | exact F6]]. }
        apply (LoopR_step 6 e1 _ op (s2 ++ rest) e2 rest).
        { rewrite choice_blank by exact B. apply choice_op; [lia | exact J]. }
        { apply (climb 7 8 _ e2 rest); [lia | exact R2 | apply (follow_mono 7); [lia | exact F] | apply follow_stop; [lia | exact F]]. }
        exact R.
      * assert (F7 : follow 8 (b ++ op ++ s2 ++ rest)) by (apply follow_blank; [exact B|]; apply (follow_op 7); [lia | exact J | exact N2]).
        apply (LevelR_bin 6 _ (Node op [e1; e2]) rest); [lia | | exact R].
        apply (LevelR_bin 7 _ e1 (b ++ op ++ s2 ++ rest)); [lia | apply (reads_full 7); [exact IH1 | exact F7] |].
        apply (LoopR_step 7 e1 _ op (s2 ++ rest) e2 rest); [| exact R2 | apply follow_stop; [lia | exact F]].
        rewrite choice_blank by exact B. apply choice_op; [lia | exact J].
    + destruct (C1 NK) as [J MS].
      assert (FK : follow (S (ml k)) (b ++ op ++ s2 ++ rest)) by (apply follow_blank; [exact B|]; apply follow_op; auto).
      destruct IH1 as (_ & A1 & _). apply A1; [exact ML | exact FK |].
      apply (LoopR_step (ml k) e1 _ op (s2 ++ rest) e2 rest); [| | exact R].
      { rewrite choice_blank by exact B. now apply choice_op. }
      rewrite <- MS. apply reads_full; [exact IH2 | rewrite MS; exact F].
  - intros k e s K _ IH. unfold PRIMARY in K. unfold reads. split; [lia|].
    destruct (le_lt_dec k 9) as [L | L].
    + assert (ML : (ml k <= 10)%nat /\ (ml k < ml (S k) <= 11)%nat) by (do 10 (destruct k as [| k]; [cbn; lia|]); lia).
      split; [|split; [intros; lia|split; [now destruct IH as (_ & _ & _ & H & _) | intros ->; unfold PRIMARY in K; lia]]].
      intros _ rest r F R. apply (climb (ml k) (ml (S k)) _ e rest); auto; [lia|].
      apply reads_full; [exact IH | apply (follow_mono (S (ml k))); [lia | exact F]].
    + replace k with 10%nat in * by lia. cbn [ml] in *.
      split; [intros; lia|]. split; [|split; [now destruct IH as (_ & _ & _ & H & _) | intros; discriminate]].
      intros _ rest N. destruct IH as (_ & _ & H & _ & U). apply LevelR_unary_none; [now apply U|]. apply H; [cbn [ml]; lia | exact N].
  - intros e s _ IH. split; [discriminate|]. intros b t B. cbn [length Nat.sub]. split; [intros; lia|].
    apply (SeqR_last _ e (b ++ 41 :: t)); [| now apply lit_close].
    apply (reads_full 0); [exact IH|]. apply follow_blank; [exact B | apply follow_close].
  - intros e s b l s' _ IH B _ [NE IHl]. split; [discriminate|]. intros b' t B'.
    destruct (IHl b' t B') as [I1 I2].
    assert (R : LevelR 0 (s ++ b ++ COMMA ++ s' ++ b' ++ 41 :: t) (Some (e, b ++ COMMA ++ s' ++ b' ++ 41 :: t))).
    { apply (reads_full 0); [exact IH|]. apply follow_blank; [exact B | apply follow_comma]. }
    assert (LC : lit COMMA (b ++ COMMA ++ s' ++ b' ++ 41 :: t) = Some (s' ++ b' ++ 41 :: t)) by (rewrite lit_blank by exact B; reflexivity).
    destruct l as [| a l]; [congruence|]. cbn [length] in *. replace (S (S (length l)) - 1)%nat with (S (S (length l) - 1)) by lia.
    rewrite <- !app_assoc. split.
    + intros [| i] Hi.
      * apply (SeqR_last_none _ e (b ++ COMMA ++ s' ++ b' ++ 41 :: t)); [exact R|]. rewrite lit_blank by exact B. reflexivity.
      * apply (SeqR_more_none i _ e _ _ R LC). apply I1. lia.
    + apply (SeqR_more _ _ e _ _ _ _ R LC I2).
Qed.
Lemma parse_ok e s b : writes 0 e s -> blank b -> exists n, forall m, (n <= m)%nat -> parse_to_ast m (s ++ b) = Some (Some e).
Proof.
  intros W B. destruct (reads_full 0 e s b (proj1 writes_reads 0%nat e s W)) as [n H].
  - rewrite <- (app_nil_r b). apply follow_blank; [exact B | apply follow_nil].
  - exists n. intros m M. unfold parse_to_ast. change (ml 0) with 0%nat in H. now rewrite H.
Qed.
