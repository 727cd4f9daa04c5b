(** expr and expr~: theorems. *)
From Verif Require Import ExprSpec ArgsProofs ExprProofs ExprProofs2 ExprProofs3.
From Verif Require ExprCtlSpec ExprCtlProofs.
From Coq Require Import String List.
Import ListNotations.
Local Open Scope list_scope.
Local Open Scope Z_scope.

(** C93: however an expression is written - blanks, redundant parentheses, any mix of operators of C's
    precedences - it is read as that expression, given enough recursion. *)
Theorem expr_parsed_as_written : forall e s b, writes 0 e s -> blank b ->
  exists n, forall m, (n <= m)%nat -> parse_to_ast m (s ++ b) = Some (Some e).
Proof. exact parse_ok. Qed.
Print Assumptions expr_parsed_as_written.

Ltac lit_blank_tac := repeat constructor; unfold blank; repeat constructor; lia.
Definition v1 : ast := Var (T "$v1").
Lemma w_tight k j e s : (k + j <= PRIMARY)%nat -> writes (k + j) e s -> writes k e s.
Proof.
  revert k; induction j as [| j IH]; intros k L H; [now rewrite Nat.add_0_r in H|].
  apply W_tighter; [unfold PRIMARY in *; lia|]. apply IH; [lia|]. now replace (S k + j)%nat with (k + S j)%nat by lia.
Qed.
Example expr_written_example :
  writes 0 (Node (T "+") [Node (T "*") [Num_f (T "0.5"); v1]; Node (T "max") [v1; Node (T "-") [Num_i (T "2")]]])
    (T "0.5 *$v1 + max($v1\, -2)") /\
  parse_to_ast 100 (T "0.5 *$v1 + max($v1\, -2)") =
    Some (Some (Node (T "+") [Node (T "*") [Num_f (T "0.5"); v1]; Node (T "max") [v1; Node (T "-") [Num_i (T "2")]]])).
Proof.
  assert (B0 : blank []) by constructor. assert (B1 : blank [32]) by (repeat constructor).
  assert (V : forall b, blank b -> writes PRIMARY v1 (b ++ T "$v1")).
  { intros b B. apply W_var; [exact B|]. exists 118, (T "1"). split; [reflexivity|]. split; [cbn; tauto|]. split; [discriminate | vm_compute; repeat constructor; discriminate]. }
  split; [| vm_compute; reflexivity].
  apply (w_tight 0 8); [unfold PRIMARY; lia|].
  change (T "0.5 *$v1 + max($v1\, -2)") with ((([] ++ T "0" ++ T "." ++ T "5") ++ [32] ++ T "*" ++ ([] ++ T "$v1")) ++ [32] ++ T "+" ++ ([32] ++ T "max" ++ T "(" ++ (([] ++ T "$v1") ++ [] ++ COMMA ++ ([32] ++ T "-" ++ ([] ++ T "2"))) ++ [] ++ T ")")).
  apply (W_binary 8 [32] (T "+") [T "+"; T "-"]); [reflexivity | now left | exact B1 | |].
  - cbn [Nat.eqb CMP]. apply W_tighter; [unfold PRIMARY; lia|].
    apply (W_binary 9 [32] (T "*") [T "*"; T "/"; T "%"]); [reflexivity | now left | exact B1 | |].
    + cbn [Nat.eqb CMP]. apply (w_tight 9 2); [unfold PRIMARY; lia|].
      apply (W_float [] (T "0") (T "5")); [exact B0 | |]; (split; [discriminate | vm_compute; repeat constructor; discriminate]).
    + apply (w_tight 10 1); [unfold PRIMARY; lia|]. now apply V.
  - apply (w_tight 9 2); [unfold PRIMARY; lia|]. apply W_func; [exact B1 | exact B0 | vm_compute; tauto | cbn; lia |].
    apply W_more; [| exact B0 |].
    + apply (w_tight 0 11); [unfold PRIMARY; lia|]. now apply V.
    + apply W_last. apply (w_tight 0 10); [unfold PRIMARY; lia|]. apply W_unary; [exact B1 | now left |].
      apply (w_tight 10 1); [unfold PRIMARY; lia|]. apply (W_int [] (T "2")); [exact B0 | split; [discriminate | vm_compute; repeat constructor; discriminate]].
Qed.

(** C94: text that is not an expression should be rejected; what follows the longest readable prefix is
    silently dropped. *)
Theorem expr_trailing_text_refuted :
  parse_to_ast 100 (T "$v1*.5") = Some (Some (Var (T "$v1"))) /\
  parse_to_ast 100 (T "1e3*$v1") = Some (Some (Num_i (T "1"))) /\
  parse_to_ast 100 (T "$v1 + random(0\, 1)") = Some (Some (Var (T "$v1"))).
Proof. repeat split; vm_compute; reflexivity. Qed.
Print Assumptions expr_trailing_text_refuted.

(** C95: comparisons have one precedence in C and Pd; here < and > bind tighter than <= and >=. *)
Theorem expr_comparison_precedence_refuted :
  parse_to_ast 100 (T "1<=2<3") = Some (Some (Node (T "<=") [Num_i (T "1"); Node (T "<") [Num_i (T "2"); Num_i (T "3")]])).
Proof. vm_compute; reflexivity. Qed.
Print Assumptions expr_comparison_precedence_refuted.

(** C96: the code generated for expr~ computes the expression, whatever the vector functions and the
    buffers' old contents are and whichever free buffer is reused, as long as ten buffers are enough. *)
Lemma value_ext {V} (csem : text -> list V -> V) const (f g : Z -> V) n e :
  (forall i, 1 <= i <= n -> f i = g i) -> supported n e -> value csem const f e = value csem const g e.
Proof.
  intros H. induction e as [d | d | v | op args IH] using ast_ind'; intros S; cbn [value]; try reflexivity.
  - destruct S as (_ & _ & R). now apply H.
  - f_equal. destruct S as [_ S]. induction IH as [| a args A _ IH']; [reflexivity|]. cbn [map fold_right] in *. destruct S as [S1 S2].
    rewrite A, IH' by assumption. reflexivity.
Qed.
Theorem expr_tilde_code_correct : forall (V : Type) (csem : text -> list V -> V) const (input : Z -> V) inlets op args pick,
  let e := Node op args in let ins := map (fun k => input (Z.of_nat k)) (seq 1 inlets) in
  valid_pick pick -> supported (Z.of_nat inlets) e -> (buffers_needed e <= 10)%nat ->
  exists ls, to_c_simd pick e = Some (ls, buffers_needed e) /\
    (forall l b, In l ls -> In b (line_bufs l) -> (b < buffers_needed e)%nat) /\
    forall s, exists s', run_lines csem const ins s ls = Ok s' /\ c_out s' = value csem const input e.
Proof.
  intros V csem const input inlets op args pick e ins PV S B. subst e.
  assert (LI : zlen ins = Z.of_nat inlets) by (unfold ins, zlen; now rewrite map_length, seq_length).
  rewrite <- LI in S. destruct (prep_supported _ true (Node op args) S) as [t P].
  destruct (root_ok pick PV csem const ins op args t P S B) as (ls & st' & G & N & U & R).
  exists ls. unfold to_c_simd. rewrite P, G, N. split; [reflexivity|]. split; [rewrite <- N; exact U|].
  intros s. destruct (R s) as (s' & E1 & E2). exists s'. split; [exact E1|]. rewrite E2.
  apply (value_ext csem const _ _ (zlen ins)); [| exact S]. intros i I. unfold inputs, ins.
  rewrite LI in I. erewrite map_nth_error; [| apply (nth_error_nth' _ O); rewrite seq_length; lia].
  rewrite seq_nth by lia. f_equal. lia.
Qed.
Print Assumptions expr_tilde_code_correct.
Definition first_pick (n : nat) (l : list nat) : nat := hd O l.
Lemma first_pick_valid : valid_pick first_pick.
Proof. intros n [| x l] H; [congruence | now left]. Qed.

Ltac in_tac := first [now left | right; in_tac].
Ltac known := first [left; split; [reflexivity | in_tac] | right; left; split; [reflexivity | vm_compute; tauto] | right; right; split; [cbn; lia | vm_compute; tauto]].
Lemma v1_supported : supported 1 v1.
Proof.
  split; [exists 118, (T "1"); split; [reflexivity|]; split; [cbn; tauto|]; split; [discriminate | vm_compute; repeat constructor; discriminate]|].
  split; [now left|]. vm_compute. split; discriminate.
Qed.
Example expr_code_example :
  let e := Node (T "+") [Node (T "*") [Num_f (T "0.5"); v1]; Node (T "max") [v1; Node (T "-") [Num_f (T "2.0")]]] in
  supported 1 e /\ buffers_needed e = 4%nat /\ valid_pick first_pick /\
  to_c_simd first_pick e = Some (
    [CLoad true 0 (T "0.5"); CCall (T "__hv_mul_f") [OBuf 0; OIn 0] (OBuf 1);
     CLoad true 0 (T "0.0f"); CLoad true 2 (T "2.0"); CCall (T "__hv_sub_f") [OBuf 0; OBuf 2] (OBuf 3);
     CCall (T "__hv_max_f") [OIn 0; OBuf 3] (OBuf 2); CCall (T "__hv_add_f") [OBuf 1; OBuf 2] OOut], 4%nat).
Proof.
  intros e. split; [| split; [reflexivity | split; [exact first_pick_valid | vm_compute; reflexivity]]].
  split; [known|]. split; [split; [known|]; split; [exact I|]; split; [exact v1_supported | exact I]|].
  split; [| exact I]. split; [known|]. split; [exact v1_supported|]. split; [| exact I]. split; [known|]. split; exact I.
Qed.

(** C97: from the text in the patch to the sound: reading, code generation and execution together. *)
Theorem expr_tilde_end_to_end : forall (V : Type) (csem : text -> list V -> V) const (input : Z -> V) inlets op args s b pick,
  let e := Node op args in let ins := map (fun k => input (Z.of_nat k)) (seq 1 inlets) in
  writes 0 e s -> blank b -> valid_pick pick -> supported (Z.of_nat inlets) e -> (buffers_needed e <= 10)%nat ->
  exists n, forall m, (n <= m)%nat -> exists a ls k, parse_to_ast m (s ++ b) = Some (Some a) /\ to_c_simd pick a = Some (ls, k) /\
    forall st, exists st', run_lines csem const ins st ls = Ok st' /\ c_out st' = value csem const input e.
Proof.
  intros V csem const input inlets op args s b pick e ins W B P S N.
  destruct (parse_ok e s b W B) as [n H]. exists n. intros m M. specialize (H m M).
  destruct (expr_tilde_code_correct V csem const input inlets op args pick P S N) as (ls & C & _ & R).
  exists e, ls, (buffers_needed e). auto.
Qed.
Print Assumptions expr_tilde_end_to_end.

(** C98: with more than ten buffers, only the first digit of a buffer's number is used when it is freed, so
    a buffer in use is overwritten.  0.0 + (1.0 + (2.0 + ... + 11.0)): *)
Definition nth_const (k : nat) : text := nth k (map T ["0.0"; "1.0"; "2.0"; "3.0"; "4.0"; "5.0"; "6.0"; "7.0"; "8.0"; "9.0"; "10.0"; "11.0"]%string) [].
Definition deep : ast := fold_right (fun k e => Node (T "+") [Num_f (nth_const k); e]) (Num_f (nth_const 11)) (seq 0 11).
Definition sum_sem (f : text) (vs : list Z) : Z := fold_right Z.add 0 vs.
Definition whole_part (fl : bool) (d : text) : Z := int_of (fst (span_digits d)).
Theorem expr_tilde_many_buffers_refuted :
  supported 1 deep /\ value sum_sem whole_part (fun _ => 0) deep = 66 /\
  exists ls n s', to_c_simd first_pick deep = Some (ls, n) /\ run_lines sum_sem whole_part [0] (mkC (fun _ => 0) 0) ls = Ok s' /\ c_out s' = 130.
Proof.
  split; [| split; [vm_compute; reflexivity |]].
  - unfold deep. cbn [seq fold_right]. do 11 (split; [known|]; split; [exact I|]; split; [| exact I]). exact I.
  - destruct (to_c_simd first_pick deep) as [[ls n]|] eqn:E; [| vm_compute in E; discriminate].
    exists ls, n. vm_compute in E. injection E as <- <-. eexists. split; [reflexivity|]. split; [vm_compute; reflexivity|]. vm_compute; reflexivity.
Qed.
Print Assumptions expr_tilde_many_buffers_refuted.

(** C99: an expression that is just a variable or a constant generates no code: the outlet keeps whatever
    the buffer held. *)
Theorem expr_tilde_bare_refuted : forall (V : Type) (csem : text -> list V -> V) const ins pick s,
  to_c_simd pick v1 = Some ([], O) /\ to_c_simd pick (Num_f (T "0.5")) = Some ([], O) /\
  run_lines csem const ins s [] = Ok s.
Proof. intros; repeat split; vm_compute; reflexivity. Qed.
Print Assumptions expr_tilde_bare_refuted.

(** C100: variable number 0 reads in front of the input array; $i and $s variables stop the compiler, and so
    does the function drem. *)
Theorem expr_tilde_unsupported_refuted : forall pick,
  (exists ls n, to_c_simd pick (Node (T "+") [Var (T "$v0"); v1]) = Some (ls, n) /\
     forall (V : Type) (csem : text -> list V -> V) const ins s, run_lines csem const ins s ls = UB) /\
  to_c_simd pick (Node (T "+") [Var (T "$i1"); v1]) = None /\ to_c_simd pick (Node (T "drem") [v1; v1]) = None /\
  parse_to_ast 100 (T "drem($v1\, $v1)") = Some (Some (Node (T "drem") [v1; v1])).
Proof.
  intros pick. split; [| repeat split; vm_compute; reflexivity].
  eexists _, _. split; [vm_compute; reflexivity|]. reflexivity.
Qed.
Print Assumptions expr_tilde_unsupported_refuted.

(** C101: in a patch with any number of expr~ objects, each call runs the function of its own object. *)
Theorem expr_tilde_calls_own_function : forall objs, NoDup objs -> expr_calls objs = map (fun o => (o, Some o)) objs.
Proof.
  intros objs N. unfold expr_calls. destruct (emit_exprs objs []) as [calls d] eqn:E.
  destruct (emit_ok objs [] calls d) as (e & _ & _ & H); auto. intros ? ? [].
Qed.
Print Assumptions expr_tilde_calls_own_function.
Example expr_calls_example : expr_calls [7; 3; 9] = [(7, Some 7); (3, Some 3); (9, Some 9)].
Proof. reflexivity. Qed.

(** C102: in a control expr, every variable becomes the argument of its number, with its type, and nothing
    else changes - even when one variable's name is a prefix of another's. *)
Theorem expr_variables_bound : forall ts, cut_ok ts ->
  exists f, (forall r, In r (refs ts) -> exists c, f r = Some c /\ c_text r c) /\
    exists s, substituted f ts = Some s /\ bind_expr (render [DOLLAR] ts) = Some s.
Proof.
  intros ts C. exists (fun r => Some (cvar r)). split.
  - intros r I. exists (cvar r). split; [reflexivity|]. apply cvar_ok. apply (cut_refs ts); [now apply cut_of | exact I].
  - rewrite (bind_expr_ok ts C).
    assert (exists s, substituted (fun r => Some (cvar r)) ts = Some s) as [s E]; [| eauto].
    clear C. induction ts as [| [s | r] ts [x IH]]; cbn [substituted meaning]; [eauto | |]; rewrite IH; eauto.
Qed.
Print Assumptions expr_variables_bound.
Example expr_variables_example :
  let ts := [Ref (T "f1"); Lit (T "+"); Ref (T "f11"); Lit (T "*"); Ref (T "i1")] in
  cut_ok ts /\ render [DOLLAR] ts = T "$f1+$f11*$i1" /\
  bind_expr (T "$f1+$f11*$i1") = Some (T "((float)(args[0]))+((float)(args[10]))*((int)(args[0]))").
Proof.
  intros ts. split; [| split; vm_compute; reflexivity].
  assert (D1 : digits (T "1")) by (split; [discriminate | vm_compute; repeat constructor; discriminate]).
  assert (D11 : digits (T "11")) by (split; [discriminate | vm_compute; repeat constructor; discriminate]).
  cbn [ts cut_ok].
  split; [exists 102, (T "1"); split; [reflexivity|]; split; [now left|]; split; [exact D1 | vm_compute; discriminate]|].
  split; [vm_compute; intros [A B]; now apply A|].
  split; [intros [A | []]; discriminate|].
  split; [exists 102, (T "11"); split; [reflexivity|]; split; [now left|]; split; [exact D11 | vm_compute; discriminate]|].
  split; [vm_compute; intros [A B]; now apply A|].
  split; [intros [A | []]; discriminate|].
  split; [exists 105, (T "1"); split; [reflexivity|]; split; [right; now left|]; split; [exact D1 | vm_compute; discriminate]|].
  split; exact I.
Qed.
(** C103: variable 0 and symbol variables of a control expr. *)
Theorem expr_control_variables_refuted :
  bind_expr (T "$f0+1") = Some (T "((float)(args[-1]))+1") /\ bind_expr (T "$s1") = None /\ bind_expr (T "$v1+1") = Some (T "$v1+1").
Proof. repeat split; vm_compute; reflexivity. Qed.
Print Assumptions expr_control_variables_refuted.

(** C104: a control expr answers every message at its first inlet once, with the latest values of all
    variables, and messages elsewhere only store. *)
Theorem expr_control_answers : forall eval es, Forall (fun e => 0 <= ExprCtlSpec.e_inlet e < 100) es ->
  exists args, ExprCtlSpec.receive eval ExprCtlModel.cExpr_init es = Ok (args, ExprCtlSpec.answers eval [] es).
Proof. intros eval es H. apply ExprCtlProofs.receive_ok; [exact H | apply ExprCtlProofs.init_holds]. Qed.
Print Assumptions expr_control_answers.
Example expr_control_example :
  let eval := fun l => nth 0 l 0 * 10 + nth 1 l 0 in
  let es := [ExprCtlSpec.mkEvent 1 0 [MessageModel.Flt 5]; ExprCtlSpec.mkEvent 0 7 [MessageModel.Flt 2];
             ExprCtlSpec.mkEvent 0 8 [MessageModel.Flt 3; MessageModel.Flt 4]; ExprCtlSpec.mkEvent 0 9 [MessageModel.Bang]] in
  Forall (fun e => 0 <= ExprCtlSpec.e_inlet e < 100) es /\
  ExprCtlSpec.answers eval [] es = [(7, 25); (8, 34); (9, 34)].
Proof. split; [| vm_compute; reflexivity]. repeat constructor; discriminate. Qed.
