(** The code of expr~ computes the expression. *)
From Verif Require Import ExprSpec ArgsProofs.
From Coq Require Import String List ZifyBool.
Import ListNotations.
Local Open Scope list_scope.
Local Open Scope Z_scope.

Lemma nodup_app {A} (a b : list A) : NoDup a -> NoDup b -> (forall x, In x a -> ~ In x b) -> NoDup (a ++ b).
Proof.
  induction a as [| x a IH]; intros Ha Hb H; [exact Hb|]. inversion Ha; subst. cbn [app]. constructor.
  - intros Q. apply in_app_or in Q as [Q | Q]; [contradiction|]. exact (H x (or_introl eq_refl) Q).
  - apply IH; auto using in_cons.
Qed.
Section TreeInd.
Variable P : ast -> Prop.
Hypothesis Hi : forall d, P (Num_i d).
Hypothesis Hf : forall d, P (Num_f d).
Hypothesis Hv : forall v, P (Var v).
Hypothesis Hn : forall op args, Forall P args -> P (Node op args).
Fixpoint ast_ind' (e : ast) : P e :=
  match e with
  | Num_i d => Hi d | Num_f d => Hf d | Var v => Hv v
  | Node op args => Hn op args ((fix go l : Forall P l := match l with [] => Forall_nil P | a :: l' => Forall_cons a (ast_ind' a) (go l') end) args)
  end.
End TreeInd.

(** ** Names *)
Lemma names_functions : forall f, In f functions -> get_hv_func_simd f = Some (function_of f).
Proof.
  assert (H : forallb (fun f => match get_hv_func_simd f with Some g => text_eqb g (function_of f) | None => false end) functions = true)
    by (vm_compute; reflexivity).
  intros f I. pose proof (proj1 (forallb_forall _ _) H f I) as E. cbv beta in E.
  destruct (get_hv_func_simd f); [| discriminate]. apply text_eqb_eq in E. congruence.
Qed.
Lemma names_binary : forall op, In op (concat c_levels) -> exists g, get_hv_func_simd op = Some g /\ assoc binary_function op = Some g.
Proof.
  assert (H : forallb (fun f => match get_hv_func_simd f, assoc binary_function f with Some g, Some g' => text_eqb g g' | _, _ => false end) (concat c_levels) = true)
    by (vm_compute; reflexivity).
  intros f I. pose proof (proj1 (forallb_forall _ _) H f I) as E. cbv beta in E.
  destruct (get_hv_func_simd f); [| discriminate]. destruct (assoc binary_function f); [| discriminate].
  apply text_eqb_eq in E. subst; eauto.
Qed.
Lemma names_not_op : forall f, In f functions -> assoc binary_function f = None /\ assoc unary_function f = None /\ text_eqb f (T "-") = false.
Proof.
  assert (H : forallb (fun f => match assoc binary_function f, assoc unary_function f with None, None => negb (text_eqb f (T "-")) | _, _ => false end) functions = true)
    by (vm_compute; reflexivity).
  intros f I. pose proof (proj1 (forallb_forall _ _) H f I) as E. cbv beta in E.
  destruct (assoc binary_function f); [discriminate|]. destruct (assoc unary_function f); [discriminate|].
  destruct (text_eqb f (T "-")); [discriminate|]. auto.
Qed.
Lemma name_minus : get_hv_func_simd (T "-") = Some (T "__hv_sub_f").
Proof. vm_compute; reflexivity. Qed.

(** The call made for an operator computes what it should. *)
Lemma apply_call {V} (csem : text -> list V -> V) const op vs :
  known_op op (length vs) ->
  exists g, get_hv_func_simd op = Some g /\
    apply csem const op vs = csem g ((if text_eqb op (T "-") && (length vs =? 1)%nat then [const true (T "0.0f")] else []) ++ vs).
Proof.
  intros [[E I] | [[E I] | [E I]]].
  - destruct vs as [| v [|]]; try discriminate E. cbn [length Nat.eqb]. rewrite andb_true_r.
    cbn [unary_operators In] in I. destruct I as [<- | [<- | [<- | []]]];
    (eexists; split; [vm_compute; reflexivity|]; reflexivity).
  - destruct (names_binary _ I) as (g & G & A). exists g; split; [exact G|].
    destruct vs as [| v [| w [|]]]; try discriminate E. cbn [length Nat.eqb]. rewrite andb_false_r.
    unfold apply. rewrite A. reflexivity.
  - destruct (names_not_op _ I) as (A & B & C). exists (function_of op); split; [now apply names_functions|].
    rewrite C. cbn [andb app]. unfold apply. rewrite A, B, C. now destruct vs as [| ? [|]].
Qed.

(** ** Buffers *)
Definition live (st : ba) (b : nat) : Prop := (b < ba_next st)%nat /\ ~ In b (ba_avail st).
Record wf (st : ba) : Prop := mkWf {
  wf_nd : NoDup (ba_avail st);
  wf_lt : forall b, In b (ba_avail st) -> (b < ba_next st)%nat }.
Definition nlive (st : ba) : nat := (ba_next st - length (ba_avail st))%nat.
Lemma wf_len st : wf st -> (length (ba_avail st) <= ba_next st)%nat.
Proof.
  intros [N L]. rewrite <- (seq_length (ba_next st) 0). apply NoDup_incl_length; [exact N|].
  intros b I. apply in_seq. specialize (L b I). lia.
Qed.
Lemma filter_true_id {A} f (l : list A) : (forall x, In x l -> f x = true) -> filter f l = l.
Proof. induction l as [| x l IH]; intros H; cbn [filter]; [reflexivity|]. rewrite (H x (or_introl eq_refl)), IH; auto using in_cons. Qed.
Lemma filter_out_len (l : list nat) b : NoDup l -> In b l -> S (length (filter (fun x => negb (x =? b)%nat) l)) = length l.
Proof.
  induction l as [| x l IH]; intros N I; [destruct I|]. inversion N; subst. cbn [filter length].
  destruct (Nat.eqb_spec x b); cbn [negb].
  - subst. f_equal. rewrite filter_true_id; [reflexivity|].
    intros y Y. destruct (Nat.eqb_spec y b); [subst; contradiction | reflexivity].
  - cbn [length]. destruct I as [-> | I]; [congruence|]. rewrite (IH H2 I). reflexivity.
Qed.

Section Alloc.
Variable pick : nat -> list nat -> nat.
Hypothesis PV : valid_pick pick.
Lemma next_buf_ok st b st' : wf st -> next_buf pick st = (b, st') ->
  wf st' /\ ~ live st b /\ live st' b /\ (forall x, live st' x <-> live st x \/ x = b) /\
  nlive st' = S (nlive st) /\ ba_next st' = Nat.max (ba_next st) (S (nlive st)).
Proof.
  intros W E. pose proof (wf_len st W) as LE. destruct W as [N L]. unfold next_buf in E.
  destruct (ba_avail st) as [| a l] eqn:A; [| remember (a :: l) as av eqn:Hav; cbv beta iota zeta in E].
  - injection E as <- <-. unfold live, nlive; cbn [ba_next ba_avail length]. rewrite A in *. cbn [length] in *.
    repeat apply conj; cbn [In]; try lia; try tauto; try (intros; contradiction).
    constructor; cbn [ba_avail ba_next]; [constructor | intros ? []].
  - set (p := pick (ba_steps st) av) in *.
    assert (I : In p av) by (apply PV; rewrite Hav; discriminate).
    pose proof (filter_out_len av p N I) as FL.
    injection E as <- <-. unfold live, nlive; cbn [ba_next ba_avail]. rewrite A.
    assert (F : forall x, In x (filter (fun x => negb (x =? p)%nat) av) <-> In x av /\ x <> p).
    { intros x. rewrite filter_In. destruct (Nat.eqb_spec x p); cbn [negb]; intuition discriminate. }
    repeat apply conj.
    + constructor; [exact (NoDup_filter _ N) | intros x X; apply F in X; now apply L].
    + tauto.
    + now apply L.
    + rewrite F. tauto.
    + intros x. rewrite F. pose proof (L p I). destruct (Nat.eq_dec x p); [subst; tauto | tauto].
    + lia.
    + lia.
Qed.
Lemma first_digit_small n : (n < 10)%nat -> first_digit n = n.
Proof. intros; unfold first_digit. destruct n; [reflexivity|]. cbn [first_digit_fuel]. now replace (S n <? 10)%nat with true by lia. Qed.
Lemma free_buf_ok st b : wf st -> live st b ->
  wf (free_buf b st) /\ (forall x, live (free_buf b st) x <-> live st x /\ x <> b) /\
  S (nlive (free_buf b st)) = nlive st /\ ba_next (free_buf b st) = ba_next st.
Proof.
  intros W [L1 L2]. pose proof (wf_len st W) as LE. destruct W as [N L]. unfold free_buf.
  assert (existsb (Nat.eqb b) (ba_avail st) = false) as ->.
  { destruct existsb eqn:E; [|reflexivity]. apply existsb_exists in E as (x & X & Y). apply Nat.eqb_eq in Y; subst; contradiction. }
  assert (W' : wf (mkBa (b :: ba_avail st) (ba_next st) (S (ba_steps st)))).
  { constructor; cbn [ba_avail ba_next]; [now constructor | intros x [<- | X]; auto]. }
  pose proof (wf_len _ W') as LE'. cbn [ba_avail ba_next length] in LE'.
  unfold live, nlive; cbn [ba_next ba_avail length In].
  repeat apply conj; [exact W' | | lia | reflexivity].
  intros x; split; intros; [|]; intuition.
Qed.

(** ** Running *)
Section Run.
Context {V : Type} (csem : text -> list V -> V) (const : bool -> text -> V) (ins : list V).
Notation runs := (run_lines csem const ins).
Lemma run_app a b s : runs s (a ++ b) = let! s1 := runs s a in runs s1 b.
Proof. revert s; induction a as [| l a IH]; intros s; cbn [app run_lines obind]; [reflexivity|]. destruct run_line; cbn [obind]; auto. Qed.
Lemma values_app s a b : operand_values ins s (a ++ b) = let! x := operand_values ins s a in let! y := operand_values ins s b in Ok (x ++ y).
Proof.
  induction a as [| o a IH]; cbn [app operand_values obind].
  - now destruct operand_values.
  - destruct operand_value; cbn [obind]; try reflexivity. rewrite IH.
    destruct (operand_values ins s a); cbn [obind]; try reflexivity. now destruct (operand_values ins s b).
Qed.
Definition inputs (i : Z) : V := match nth_error ins (Z.to_nat (i - 1)) with Some v => v | None => const true [] end.
Notation val := (value csem const inputs).

(** What [gen] guarantees for one operand. *)
Definition operand_ok (st : ba) (o : operand) (st' : ba) (occ : nat) : Prop :=
  match occ with
  | O => (exists i, o = OIn i) /\ st' = st
  | _ => exists b, o = OBuf b /\ ~ live st b /\ (forall x, live st' x <-> live st x \/ x = b)
  end.
Definition keeps (st : ba) (s s' : @cstate V) : Prop := (forall b, live st b -> c_buf s' b = c_buf s b) /\ c_out s' = c_out s.
Definition bufs_below (n : nat) (ls : list cline) : Prop := forall l b, In l ls -> In b (line_bufs l) -> (b < n)%nat.
Definition good (e : ast) : Prop := forall t st, prep false e = Some t -> supported (zlen ins) e -> wf st ->
  (Nat.max (ba_next st) (nlive st + need e) <= 10)%nat ->
  exists o ls st', gen pick false t st = Some (o, ls, st') /\ wf st' /\
    nlive st' = (nlive st + occupies e)%nat /\ ba_next st' = Nat.max (ba_next st) (nlive st + need e) /\
    operand_ok st o st' (occupies e) /\ bufs_below (ba_next st') ls /\
    forall s, exists s', runs s ls = Ok s' /\ keeps st s s' /\ operand_value ins s' o = Ok (val e).

Fixpoint gens (l : list tree) (st : ba) : option (list operand * list cline * ba) :=
  match l with
  | [] => Some ([], [], st)
  | a :: l' =>
    match gen pick false a st with
    | None => None
    | Some (o, ls, st1) => match gens l' st1 with None => None | Some (os, ls', st2) => Some (o :: os, ls ++ ls', st2) end
    end
  end.
Definition zero_of (op : text) (n : nat) : bool := text_eqb op (T "-") && (n =? 1)%nat.
Definition gen_pre (op : text) (args : list tree) (st : ba) : option (list operand * list cline * ba) :=
  if zero_of op (length args) then
    let (b, st0) := next_buf pick st in
    match gens args st0 with Some (os, ls, st1) => Some (OBuf b :: os, CLoad true b (T "0.0f") :: ls, st1) | None => None end
  else gens args st.
Lemma gen_op to_out op args st : gen pick to_out (TOp op args) st =
  match gen_pre op args st with
  | None => None
  | Some (os, ls, st1) =>
    let (dest, st2) := if to_out then (OOut, st1) else let (b, st2) := next_buf pick st1 in (OBuf b, st2) in
    match get_hv_func_simd op with
    | None => None
    | Some f => Some (dest, ls ++ [CCall f os dest], free_all os st2)
    end
  end.
Proof.
  unfold gen_pre, zero_of. cbn [gen].
  change ((fix gens (l : list tree) (st : ba) : option (list operand * list cline * ba) :=
    match l with
    | [] => Some ([], [], st)
    | a :: l' =>
      match gen pick false a st with
      | None => None
      | Some (o, ls, st1) => match gens l' st1 with None => None | Some (os, ls', st2) => Some (o :: os, ls ++ ls', st2) end
      end
    end)) with gens.
  destruct (text_eqb op (T "-") && (length args =? 1)%nat).
  - destruct (next_buf pick st) as [b st0]. destruct (gens args st0) as [[[os ls] st1]|]; reflexivity.
  - destruct (gens args st) as [[[os ls] st1]|]; reflexivity.
Qed.

Definition pairs (args : list ast) : list (nat * nat) := map (fun a => (need a, occupies a)) args.
Lemma args_need_shift l a b : l <> [] -> args_need l (a + b) = (a + args_need l b)%nat.
Proof.
  revert b; induction l as [| [n o] l IH]; intros b H; [congruence|]. cbn [args_need].
  destruct l as [| p l]; [cbn [args_need]; lia|]. replace (a + b + o)%nat with (a + (b + o))%nat by lia. rewrite IH by discriminate. lia.
Qed.
Lemma nlive_le st : (nlive st <= ba_next st)%nat.
Proof. unfold nlive; lia. Qed.
Lemma need_step st n o l nx : (nlive st + o <= nx)%nat -> nx = Nat.max (ba_next st) (nlive st + n) ->
  Nat.max nx (nlive st + o + args_need l 0) = Nat.max (ba_next st) (nlive st + args_need ((n, o) :: l) 0).
Proof.
  intros H E. cbn [args_need]. destruct l as [| p l]; [cbn [args_need]; lia|].
  replace (args_need (p :: l) (0 + o)) with (args_need (p :: l) (o + 0)) by (f_equal; lia).
  rewrite args_need_shift by discriminate. lia.
Qed.
Definition obufs (os : list operand) : list nat := flat_map operand_buf os.
Definition group_ok (st : ba) (os : list operand) (ls : list cline) (st' : ba) (l : list (nat * nat)) (vs : list V) : Prop :=
  wf st' /\ nlive st' = (nlive st + list_sum (map snd l))%nat /\
  ba_next st' = Nat.max (ba_next st) (nlive st + args_need l 0) /\
  length (obufs os) = list_sum (map snd l) /\ NoDup (obufs os) /\ (forall b, In b (obufs os) -> ~ live st b) /\
  (forall x, live st' x <-> live st x \/ In x (obufs os)) /\ bufs_below (ba_next st') ls /\
  forall s, exists s', runs s ls = Ok s' /\ keeps st s s' /\ operand_values ins s' os = Ok vs.

Lemma keeps_trans st st1 s s1 s2 : (forall x, live st x -> live st1 x) -> keeps st s s1 -> keeps st1 s1 s2 -> keeps st s s2.
Proof. intros H [A B] [C D]; split; [|congruence]. intros b L. rewrite C by auto. auto. Qed.
Lemma bufs_app n a b : bufs_below n a -> bufs_below n b -> bufs_below n (a ++ b).
Proof. intros A B l x I. apply in_app_or in I as [I | I]; eauto. Qed.
Lemma bufs_mono n m a : (n <= m)%nat -> bufs_below n a -> bufs_below m a.
Proof. intros L A l x I J. specialize (A l x I J). lia. Qed.
Lemma operand_keep st1 s1 s2 o v : keeps st1 s1 s2 -> (forall b, In b (operand_buf o) -> live st1 b) ->
  operand_value ins s1 o = Ok v -> o <> OOut -> operand_value ins s2 o = Ok v.
Proof.
  intros [A B] H E O. destruct o; cbn [operand_value operand_buf] in *; auto; try congruence.
  rewrite A; [exact E | apply H; now left].
Qed.

Lemma gens_ok args : Forall good args -> forall ts st, opt_list (map (prep false) args) = Some ts ->
  fold_right and True (map (supported (zlen ins)) args) -> wf st ->
  (Nat.max (ba_next st) (nlive st + args_need (pairs args) 0) <= 10)%nat ->
  exists os ls st', gens ts st = Some (os, ls, st') /\ group_ok st os ls st' (pairs args) (map val args).
Proof.
  induction 1 as [| e args G _ IH]; intros ts st E S W B.
  - injection E as <-. exists [], [], st. split; [reflexivity|].
    unfold group_ok. cbn [pairs map list_sum fold_right obufs flat_map args_need In operand_values].
    repeat apply conj; [exact W | lia | pose proof (nlive_le st); lia | reflexivity | constructor | tauto | tauto | intros ? ? [] |].
    intros s; exists s; repeat apply conj; reflexivity.
  - cbn [map opt_list] in E. destruct (prep false e) as [t|] eqn:P; [| discriminate].
    destruct (opt_list (map (prep false) args)) as [ts'|] eqn:E'; [| discriminate]. injection E as <-.
    cbn [map fold_right] in S. destruct S as [S1 S2].
    change (pairs (e :: args)) with ((need e, occupies e) :: pairs args) in *.
    assert (B1 : (Nat.max (ba_next st) (nlive st + need e) <= 10)%nat) by (cbn [args_need] in B; lia).
    destruct (G t st P S1 W B1) as (o & ls & st1 & Eg & W1 & N1 & X1 & O1 & U1 & R1).
    pose proof (nlive_le st1) as LE1.
    pose proof (need_step st (need e) (occupies e) (pairs args) (ba_next st1) ltac:(lia) X1) as ST.
    destruct (IH ts' st1 eq_refl S2 W1) as (os & ls' & st2 & Eg' & W2 & N2 & X2 & H2 & D2 & F2 & L2 & U2 & R2); [lia|].
    cbn [gens]. rewrite Eg, Eg'. eexists _, _, _; split; [reflexivity|].
    unfold group_ok. cbn [map list_sum fold_right snd obufs flat_map]. fold (obufs os).
    assert (LV : forall x, live st1 x <-> live st x \/ In x (operand_buf o)).
    { destruct (occupies e); cbn [operand_ok] in O1.
      - destruct O1 as [[i ->] ->]. cbn; tauto.
      - destruct O1 as (b & -> & _ & L). intros x. rewrite L. cbn [operand_buf In]. intuition. }
    assert (FR : forall b, In b (operand_buf o) -> ~ live st b).
    { destruct (occupies e); cbn [operand_ok] in O1.
      - destruct O1 as [[i ->] _]. cbn; tauto.
      - destruct O1 as (b & -> & F & L). cbn. intros x [<- | []]. exact F. }
    assert (ND : NoDup (operand_buf o)) by (destruct o; cbn; repeat constructor; cbn; tauto).
    assert (NO : o <> OOut).
    { destruct (occupies e); cbn [operand_ok] in O1; [destruct O1 as [[i ->] _] | destruct O1 as (b & -> & _)]; discriminate. }
    repeat apply conj.
    + exact W2.
    + unfold list_sum in N2. lia.
    + rewrite X2. rewrite N1. exact ST.
    + rewrite app_length. unfold list_sum in H2. rewrite H2.
      destruct (occupies e) as [| [| k]] eqn:OC; cbn [operand_ok] in O1.
      * destruct O1 as [[i ->] _]. reflexivity.
      * destruct O1 as (b & -> & _). reflexivity.
      * destruct e; discriminate OC.
    + apply nodup_app; [exact ND | exact D2 |]. intros x I J. apply (F2 x J). apply LV. now right.
    + intros b I. apply in_app_or in I as [I | I]; [now apply FR|]. intros L. apply (F2 b I). apply LV. now left.
    + intros x. rewrite L2, LV, in_app_iff. tauto.
    + apply bufs_app; [| exact U2]. apply (bufs_mono (ba_next st1)); [lia | exact U1].
    + intros s. destruct (R1 s) as (s1 & Q1 & K1 & V1). destruct (R2 s1) as (s2 & Q2 & K2 & V2).
      exists s2. rewrite run_app, Q1. cbn [obind]. split; [| split].
      * exact Q2.
      * apply (keeps_trans st st1 s s1 s2); auto. intros x L. apply LV. now left.
      * cbn [operand_values]. rewrite (operand_keep st1 s1 s2 o (val e) K2) by (auto; intros; apply LV; now right).
        cbn [obind]. rewrite V2. reflexivity.
Qed.

(** With the zero of a unary minus. *)
Definition zero_pair (op : text) (n : nat) : list (nat * nat) := if zero_of op n then [(1, 1)]%nat else [].
Lemma opt_list_len {A} (l : list (option A)) r : opt_list l = Some r -> length r = length l.
Proof.
  revert r; induction l as [| [a|] l IH]; intros r E; cbn [opt_list] in E.
  - now injection E as <-.
  - destruct (opt_list l); [|discriminate]. injection E as <-. cbn [length]. now rewrite (IH _ eq_refl).
  - discriminate.
Qed.
Lemma gen_pre_ok op args : Forall good args -> forall ts st, opt_list (map (prep false) args) = Some ts ->
  fold_right and True (map (supported (zlen ins)) args) -> wf st ->
  (Nat.max (ba_next st) (nlive st + args_need (zero_pair op (length args) ++ pairs args) 0) <= 10)%nat ->
  exists os ls st', gen_pre op ts st = Some (os, ls, st') /\
    group_ok st os ls st' (zero_pair op (length args) ++ pairs args)
      ((if zero_of op (length args) then [const true (T "0.0f")] else []) ++ map val args).
Proof.
  intros G ts st E S W B. unfold gen_pre. rewrite (opt_list_len _ _ E), map_length. unfold zero_pair in *.
  destruct (zero_of op (length args)); [| now apply gens_ok].
  destruct (next_buf pick st) as [b st1] eqn:NB.
  destruct (next_buf_ok st b st1 W NB) as (W1 & F1 & L1 & LV & N1 & X1).
  pose proof (nlive_le st1) as LE1.
  cbn [app] in *.
  pose proof (need_step st 1 1 (pairs args) (ba_next st1) ltac:(lia) ltac:(lia)) as ST.
  destruct (gens_ok args G ts st1 E S W1) as (os & ls' & st2 & Eg' & W2 & N2 & X2 & H2 & D2 & F2 & L2 & U2 & R2); [lia|].
  rewrite Eg'. eexists _, _, _; split; [reflexivity|].
  unfold group_ok. cbn [map list_sum fold_right snd obufs flat_map operand_buf app]. fold (obufs os).
  repeat apply conj.
  - exact W2.
  - unfold list_sum in N2. lia.
  - rewrite X2. replace (nlive st1) with (nlive st + 1)%nat by lia. exact ST.
  - cbn [length]. unfold list_sum in H2. rewrite H2. reflexivity.
  - constructor; [| exact D2]. intros I. exact (F2 b I L1).
  - intros x [<- | I]; [exact F1|]. intros L. apply (F2 x I). apply LV. now left.
  - intros x. rewrite L2, LV. cbn [In]. intuition.
  - intros l x [<- | I] J; [| exact (U2 l x I J)]. cbn [line_bufs In] in J. destruct J as [<- | []].
    destruct L1. lia.
  - intros s. set (s1 := set_buf s b (const true (T "0.0f"))).
    assert (K1 : keeps st s s1).
    { split; [|reflexivity]. intros x L. subst s1. cbn [set_buf c_buf]. destruct (Nat.eqb_spec x b); [subst; contradiction | reflexivity]. }
    destruct (R2 s1) as (s2 & Q2 & K2 & V2).
    exists s2. cbn [run_lines run_line obind]. fold s1. split; [| split].
    + exact Q2.
    + apply (keeps_trans st st1 s s1 s2); auto. intros x L. apply LV. now left.
    + cbn [operand_values operand_value]. rewrite V2. destruct K2 as [K2 _]. rewrite (K2 b L1). subst s1.
      cbn [set_buf c_buf]. rewrite Nat.eqb_refl. reflexivity.
Qed.

Lemma free_all_ok os : forall st, wf st -> (ba_next st <= 10)%nat -> NoDup (obufs os) -> (forall b, In b (obufs os) -> live st b) ->
  wf (free_all os st) /\ (forall x, live (free_all os st) x <-> live st x /\ ~ In x (obufs os)) /\
  nlive (free_all os st) = (nlive st - length (obufs os))%nat /\ ba_next (free_all os st) = ba_next st.
Proof.
  induction os as [| o os IH]; intros st W N D L.
  - cbn [free_all obufs flat_map In length]. repeat apply conj; [exact W | intros; tauto | lia | reflexivity].
  - destruct o as [b | i | d |]; cbn [free_all obufs flat_map operand_buf app] in *; fold (obufs os) in *; try (now apply IH).
    assert (Lb : live st b) by (apply L; now left).
    rewrite first_digit_small by (destruct Lb; lia).
    destruct (free_buf_ok st b W Lb) as (W1 & LV1 & N1 & X1).
    apply NoDup_cons_iff in D as [D1 D2].
    destruct (IH (free_buf b st)) as (W2 & LV2 & N2 & X2); auto; [lia | |].
    { intros x I. apply LV1. split; [apply L; now right | intros ->; contradiction]. }
    repeat apply conj; [exact W2 | | | lia].
    + intros x. rewrite LV2, LV1. cbn [In]. intuition.
    + cbn [length]. lia.
Qed.
Lemma supported_known op args : supported (zlen ins) (Node op args) -> known_op op (length args) /\ fold_right and True (map (supported (zlen ins)) args).
Proof. intros H; exact H. Qed.

Lemma need_node op args : need (Node op args) =
  Nat.max (args_need (zero_pair op (length args) ++ pairs args) 0) (list_sum (map snd (zero_pair op (length args) ++ pairs args)) + 1).
Proof. reflexivity. Qed.
Lemma root_need op args : buffers_needed (Node op args) = args_need (zero_pair op (length args) ++ pairs args) 0.
Proof. reflexivity. Qed.

Lemma good_all e : good e.
Proof.
  induction e as [d | d | v | op args IH] using ast_ind'; intros t st P S W B.
  1,2: cbn [prep] in P; injection P as <-; cbn [gen]; destruct (next_buf pick st) as [b st1] eqn:NB;
    destruct (next_buf_ok st b st1 W NB) as (W1 & F1 & L1 & LV & N1 & X1);
    eexists _, _, _; split; [reflexivity|]; cbn [occupies need operand_ok] in *;
    split; [exact W1|]; split; [lia|]; split; [lia|]; split; [exists b; auto|]; split;
    [intros l x [<- | []] J; cbn in J; destruct J as [<- | []]; destruct L1; assumption |];
    intros s; eexists; split; [reflexivity|]; split;
    [split; [|reflexivity]; intros x L; cbn [set_buf c_buf]; destruct (Nat.eqb_spec x b); [subst; contradiction | reflexivity]
    | cbn [operand_value set_buf c_buf]; rewrite Nat.eqb_refl; reflexivity].
  - cbn [prep] in P. cbn [supported] in S. destruct S as ((ty & d & -> & I & D) & I2 & R).
    cbn [bind_var] in P. cbn [nth] in I2.
    assert ((ty =? 118) || (ty =? 102) = true) as TY by (cbn [In] in I2; lia). rewrite TY in P. injection P as <-.
    cbn [gen]. eexists _, _, _; split; [reflexivity|]. cbn [occupies need operand_ok].
    split; [exact W|]. split; [lia|]. split; [pose proof (nlive_le st); lia|]. split; [split; [eauto | reflexivity]|].
    split; [intros ? ? []|].
    intros s; exists s; split; [reflexivity|]. split; [split; reflexivity|].
    cbn [operand_value value]. unfold var_number, inputs in *. cbn [skipn] in *.
    replace (int_of d - 1 <? 0) with false by lia.
    destruct (nth_error ins (Z.to_nat (int_of d - 1))) eqn:NE; [reflexivity|].
    apply nth_error_None in NE. unfold zlen in R. lia.
  - cbn [prep] in P. destruct (opt_list (map (prep false) args)) as [ts|] eqn:E; [| discriminate]. injection P as <-.
    destruct (supported_known _ _ S) as [KO SA]. rewrite need_node in *.
    destruct (gen_pre_ok op args IH ts st E SA W) as (os & ls & st1 & Eg & W1 & N1 & X1 & H1 & D1 & F1 & L1 & U1 & R1); [lia|].
    rewrite gen_op, Eg. destruct (next_buf pick st1) as [b st2] eqn:NB.
    destruct (next_buf_ok st1 b st2 W1 NB) as (W2 & F2 & L2 & LV2 & N2 & X2).
    assert (KV : known_op op (length (map val args))) by now rewrite map_length.
    destruct (apply_call csem const op (map val args) KV) as (g & Eg2 & AP). rewrite Eg2.
    destruct (free_all_ok os st2) as (W3 & LV3 & N3 & X3); auto; [lia | |].
    { intros x I. apply LV2. left. apply L1. now right. }
    eexists _, _, _; split; [reflexivity|]. cbn [occupies operand_ok].
    assert (NB' : ~ In b (obufs os)) by (intros I; apply F2; apply L1; now right).
    split; [exact W3|]. split; [lia|]. split; [lia|]. split; [|split].
    + exists b. split; [reflexivity|]. split; [intros L; apply F2; apply L1; now left|].
      intros x. rewrite LV3, LV2, L1. specialize (F1 x). destruct (Nat.eq_dec x b) as [-> | NE]; [tauto|]. tauto.
    + apply bufs_app; [apply (bufs_mono (ba_next st1)); [lia | exact U1]|].
      intros l x [<- | []] J. cbn [line_bufs operand_buf app] in J. rewrite X3.
      destruct J as [<- | J]; [now destruct L2|]. fold (obufs os) in J.
      assert (live st2 x) as [LT _] by (apply LV2; left; apply L1; now right). exact LT.
    + intros s. destruct (R1 s) as (s1 & Q1 & K1 & V1).
      exists (set_buf s1 b (val (Node op args))). rewrite run_app, Q1. cbn [obind run_lines run_line]. rewrite V1.
      split; [| split].
      * cbn [obind]. cbn [value]. rewrite AP, map_length. reflexivity.
      * destruct K1 as [K1 K1']. split; [| exact K1']. intros x L. cbn [set_buf c_buf].
        destruct (Nat.eqb_spec x b); [subst; exfalso; apply F2, L1; now left | now apply K1].
      * cbn [operand_value set_buf c_buf]. now rewrite Nat.eqb_refl.
Qed.

(** The root. *)
Lemma root_ok op args t : prep true (Node op args) = Some t -> supported (zlen ins) (Node op args) ->
  (buffers_needed (Node op args) <= 10)%nat ->
  exists ls st', gen pick true t ba_init = Some (OOut, ls, st') /\ ba_next st' = buffers_needed (Node op args) /\
    bufs_below (ba_next st') ls /\
    forall s, exists s', runs s ls = Ok s' /\ c_out s' = val (Node op args).
Proof.
  intros P S B. rewrite root_need in *. cbn [prep] in P.
  destruct (opt_list (map (prep false) args)) as [ts|] eqn:E; [| discriminate]. injection P as <-.
  destruct (supported_known _ _ S) as [KO SA].
  assert (W : wf ba_init) by (constructor; [constructor | intros ? []]).
  assert (IH : Forall good args) by (apply Forall_forall; intros; apply good_all).
  destruct (gen_pre_ok op args IH ts ba_init E SA W) as (os & ls & st1 & Eg & W1 & N1 & X1 & H1 & D1 & F1 & L1 & U1 & R1);
    [cbn [ba_init ba_next nlive ba_avail length]; unfold nlive; cbn; lia |].
  change (nlive ba_init) with O in *. change (ba_next ba_init) with O in *.
  rewrite gen_op, Eg.
  assert (KV : known_op op (length (map val args))) by now rewrite map_length.
  destruct (apply_call csem const op (map val args) KV) as (g & Eg2 & AP). rewrite Eg2.
  destruct (free_all_ok os st1) as (W3 & LV3 & N3 & X3); auto; [lia | |].
  { intros x I. apply L1. now right. }
  eexists _, _; split; [reflexivity|]. split; [lia|]. split.
  - apply bufs_app; [apply (bufs_mono (ba_next st1)); [lia | exact U1]|].
    intros l x [<- | []] J. cbn [line_bufs operand_buf app] in J. rewrite X3. fold (obufs os) in J.
    assert (live st1 x) as [LT _] by (apply L1; now right). exact LT.
  - intros s. destruct (R1 s) as (s1 & Q1 & K1 & V1).
    exists (mkC (c_buf s1) (val (Node op args))). rewrite run_app, Q1. cbn [obind run_lines run_line]. rewrite V1.
    split; [| reflexivity]. cbn [obind value]. rewrite AP, map_length. reflexivity.
Qed.
End Run.
End Alloc.

Lemma prep_supported n root e : supported n e -> exists t, prep root e = Some t.
Proof.
  revert root; induction e as [d | d | v | op args IH] using ast_ind'; intros root S; cbn [prep]; eauto.
  - cbn [supported] in S. destruct S as ((ty & d & -> & I & D) & I2 & R). cbn [nth In] in I2. cbn [bind_var].
    replace ((ty =? 118) || (ty =? 102)) with true by lia. eauto.
  - destruct S as [_ S]. assert (exists l, opt_list (map (prep false) args) = Some l) as [l ->]; [| eauto].
    induction IH as [| a args H _ IH']; cbn [map opt_list]; [eauto|]. cbn [map fold_right] in S. destruct S as [S1 S2].
    destruct (H false S1) as [t ->]. destruct (IH' S2) as [l ->]. eauto.
Qed.
