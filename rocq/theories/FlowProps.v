(** C41 (and the self-feeding patches it leaves out): the order of messages drawn in a patch is the
    order of the calls made by the generated code. *)
From Coq Require Import ZifyBool.
From Verif Require Import FlowModel FlowSpec FlowSim FlowProofs FlowProofs2 FlowProofs3 FlowProofs4 FlowProofs5.

(** Whatever the objects do with their messages: a message delivered to an object of the drawn patch
    and the same message delivered to the generated code have the same effects - the same messages
    reach the same objects in the same order, and the states end up equal - for every patch whose
    reducible objects do not feed themselves through bare wires. *)
Theorem message_order_preserved : forall (M S : Type) (beh : Z -> nat -> M -> prog M S) (conv : ckind -> M -> option M)
    (nin nout : Z -> nat) (kind : Z -> node) (conns : list conn) (todo : list (Z * action)) g,
  (forall c, In c conns -> c_from c <> c_to c) -> build conns = Some g ->
  source_patch nin nout kind g todo -> outlets_ok beh nout kind ->
  exists g', reduce todo g = Some g' /\
    forall fuel lists, (forall o i, kinds_after kind todo o <> NNone -> on_messages (place_of (kinds_after kind todo)) g' fuel o i = Some (lists o i)) ->
    forall x b i m st st' tr, kind x = NBox b ->
      kinds_after kind todo (renamed todo x) = NBox b /\
      (exec beh conv (drawn kind conns) (TDeliver (x, i) m) st st' tr <->
       exec beh conv (compiled (kinds_after kind todo) nout lists) (TDeliver (renamed todo x, i) m) st st' tr).
Proof.
  intros M S beh conv nin nout kind conns todo g HL HB HP HO.
  destruct (chain beh conv nin nout todo kind g HP HO) as (g' & E & HP' & HO' & HK & X). exists g'. split; [exact E|].
  intros fuel lists Hl x b i m st st' tr Hx. split; [apply HK; exact Hx|].
  assert (HE : exec beh conv (drawn kind conns) (TDeliver (x, i) m) st st' tr <-> exec beh conv (flow_of kind g) (TDeliver (x, i) m) st st' tr).
  { destruct (build_spec conns HL) as (g0 & E0 & A & _). assert (g0 = g) by congruence. subst g0.
    assert (EQ : forall o j, f_outs (drawn kind conns) o j = f_outs (flow_of kind g) o j) by (intros o j; cbn [drawn flow_of f_outs]; unfold control_targets; rewrite A; reflexivity).
    split; apply exec_ext; try reflexivity; intros o j; [apply EQ|symmetry; apply EQ]. }
  rewrite HE, (X x i m st st' tr) by (exists b; exact Hx). apply (flatten beh conv nout _ g' fuel lists); [|exact (sp_nested _ _ _ _ _ HP')|exact HO'|exact Hl|exists b; apply HK; exact Hx].
  intros o ks Ho. exact (sp_complete _ _ _ _ _ HP' o ks Ho).
Qed.

(** The effects are a function of the message and the states. *)
Theorem message_effects_unique : forall (M S : Type) (beh : Z -> nat -> M -> prog M S) (conv : ckind -> M -> option M) f t st st1 tr1 st2 tr2,
  exec beh conv f t st st1 tr1 -> exec beh conv f t st st2 tr2 -> st1 = st2 /\ tr1 = tr2.
Proof. intros. eapply exec_det; eassumption. Qed.

(** ** A concrete patch: [r]-[t b a f], the left outlet to 8, the middle one to a subpatch 4 holding
    an object 7, the right one to 8; the outlet of the subpatch to the right inlet of 8. *)
Module Ex.
Definition kind (o : Z) : node :=
  match o with
  | 1 => NBox 1 | 2 => NTrigger [KBang; KAny; KFloat] | 4 => NSub (fun _ => 5) | 5 => NInlet | 7 => NBox 7 | 8 => NBox 8 | 9 => NOutlet 4 0
  | _ => NNone
  end.
Definition nin (o : Z) : nat := match o with 8 | 18 => 2%nat | _ => 1%nat end.
Definition nout (o : Z) : nat := match o with 2 => 3%nat | _ => 1%nat end.
Definition conns : list conn := map (fun w => match w with (a, i, b, j) => mkConn a i b j true end)
  [(1, 0%nat, 2, 0%nat); (2, 0%nat, 8, 0%nat); (2, 1%nat, 4, 0%nat); (2, 2%nat, 8, 0%nat); (4, 0%nat, 8, 1%nat); (5, 0%nat, 7, 0%nat); (7, 0%nat, 9, 0%nat)].
Definition todo : list (Z * action) := [(8, ARename 18 2 1); (2, ASeq [Some 21; None; Some 22]); (1, ARename 11 1 1); (7, ARename 17 1 1)].
Definition msg := option Z.
Definition conv (k : ckind) (m : msg) : option msg := match k with KBang => Some None | KFloat => match m with Some _ => Some m | None => None end | _ => Some m end.
(** 7 repeats its input and then sends 100 plus the number of messages seen, which it counts. *)
Definition beh (b : Z) (i : nat) (m : msg) : prog msg Z :=
  match b with
  | 1 => Emit O m Ret
  | 7 => Get 7 (fun n => Put 7 (n + 1) (Emit O m (Emit O (Some (100 + n)) Ret)))
  | _ => Ret
  end.

Definition g : graph := match build conns with Some g => g | None => mkGraph (fun _ _ => []) (fun _ _ => []) end.
Lemma nosame : forall c, In c conns -> c_from c <> c_to c.
Proof. intros c H. cbn in H. repeat (destruct H as [<- |H]; [discriminate|]). destruct H. Qed.
Lemma built : build conns = Some g.
Proof. destruct (build_spec conns nosame) as (g0 & E & _). unfold g. rewrite E. reflexivity. Qed.
Lemma outs : forall o i, g_outs g o i = filter (wire_from o i) conns.
Proof. destruct (build_spec conns nosame) as (g0 & E & A & _). assert (g0 = g) by (pose proof built; congruence). subst g0. exact A. Qed.
Lemma ins : forall o i, g_ins g o i = filter (wire_to o i) conns.
Proof. destruct (build_spec conns nosame) as (g0 & E & _ & A). assert (g0 = g) by (pose proof built; congruence). subst g0. exact A. Qed.
Lemma out_in o i c : In c (g_outs g o i) -> In c conns /\ c_from c = o /\ c_out c = i.
Proof. rewrite outs. intros H. apply filter_In in H as (H & W). unfold wire_from in W. split; [exact H|lia]. Qed.
Lemma upward : forall x y, reaches kind g x y -> x < y.
Proof.
  assert (U : forall o i c, In c (g_outs g o i) -> o < c_to c).
  { intros o i c H. apply out_in in H as (H & <- & _). cbn in H. repeat (destruct H as [<- |H]; [reflexivity|]). destruct H. }
  induction 1 as [i c H|t ks i c H IH _ _ Hc]; [eapply U; exact H|]. specialize (U _ _ _ Hc). lia.
Qed.
Lemma fresh : forall x, ~ In x [1; 2; 4; 5; 7; 8; 9] -> unconnected g x.
Proof.
  intros x Hx i. rewrite outs, ins. split.
  - assert (G : forall c, In c conns -> c_to c <> x) by (intros c H E; apply Hx; rewrite <- E; cbn in H; repeat (destruct H as [<- |H]; [cbn; tauto|]); destruct H).
    apply filter_no. intros c H. unfold wire_to. specialize (G c H). lia.
  - assert (G : forall c, In c conns -> c_from c <> x) by (intros c H E; apply Hx; rewrite <- E; cbn in H; repeat (destruct H as [<- |H]; [cbn; tauto|]); destruct H).
    apply filter_no. intros c H. unfold wire_from. specialize (G c H). lia.
Qed.
Example patch_ok : source_patch nin nout kind g todo.
Proof.
  split.
  - apply (built_consistent nin nout conns g nosame built). intros c H. cbn in H. repeat (destruct H as [<- |H]; [cbn; lia|]). destruct H.
  - split.
    + intros o ils i H. assert (o = 4 /\ ils i = 5) as (_ & ->); [|reflexivity].
      unfold kind in H. repeat match type of H with match ?z with _ => _ end = _ => destruct z; try discriminate end. injection H as <-. auto.
    + intros o gr idx H. exists (fun _ => 5). assert (gr = 4) as ->; [|reflexivity].
      unfold kind in H. repeat match type of H with match ?z with _ => _ end = _ => destruct z; try discriminate end. injection H as <- _. reflexivity.
  - intros oa H. cbn in H. repeat (destruct H as [<- |H]; [|]); [| | | |destruct H].
    + cbn. repeat split. eexists; reflexivity.
    + cbn. eexists. split; [reflexivity|]. repeat split. repeat (constructor; [first [reflexivity|eexists; repeat split]|]). constructor.
    + cbn. repeat split. eexists; reflexivity.
    + cbn. repeat split. eexists; reflexivity.
  - cbn. repeat (constructor; [cbn; lia|]). constructor.
  - intros oa x H Hx. cbn in H. repeat (destruct H as [<- |H]; [cbn in Hx; repeat (destruct Hx as [<- |Hx]; [split; [reflexivity|apply fresh; cbn; lia]|]); destruct Hx|]). destruct H.
  - intros o casts i c H Hc. apply out_in in Hc as (Hc & _). cbn in Hc. repeat (destruct Hc as [<- |Hc]; [reflexivity|]). destruct Hc.
  - intros o ks H. assert (o = 2) as ->; [|cbn; tauto].
    unfold kind in H. repeat match type of H with match ?z with _ => _ end = _ => destruct z; try discriminate end. reflexivity.
  - intros oa H R. apply upward in R. lia.
Qed.
Example outlets : outlets_ok beh nout kind.
Proof.
  split.
  - intros o b i m H. unfold kind in H. repeat match type of H with match ?z with _ => _ end = _ => destruct z; try discriminate end; injection H as <-; cbn; auto.
  - intros o k H. unfold kind in H. repeat match type of H with match ?z with _ => _ end = _ => destruct z; try discriminate end.
Qed.
(** What the patch does with the message 5: right to left, depth first. *)
Definition trace5 : list (Z * nat * msg) :=
  [(1, 0%nat, Some 5); (8, 0%nat, Some 5); (7, 0%nat, Some 5); (8, 1%nat, Some 5); (8, 1%nat, Some 103); (8, 0%nat, None)].

(** An interpreter, to run examples. *)
Fixpoint interp (n : nat) (f : flow) (t : @task msg Z) (st : Z -> Z) : option ((Z -> Z) * list (Z * nat * msg)) :=
  match n with
  | O => None
  | S n =>
    let both t1 t2 := match interp n f t1 st with Some (s1, r1) => match interp n f t2 s1 with Some (s2, r2) => Some (s2, r1 ++ r2) | None => None end | None => None end in
    match t with
    | TDeliver (o, i) m => match f_kind f o with
                           | NBox b => option_map (fun r => (fst r, (b, i, m) :: snd r)) (interp n f (TRun o (beh b i m)) st)
                           | k => interp n f (TPass (passes k o i) m) st
                           end
    | TSend [] _ | TPass [] _ | TRun _ Ret => Some (st, [])
    | TSend (x :: l) m => both (TDeliver x m) (TSend l m)
    | TPass ((k, src) :: l) m => match convert conv k m with None => interp n f (TPass l m) st | Some m' => both (TSend (f_outs f (fst src) (snd src)) m') (TPass l m) end
    | TRun o (Get b k) => interp n f (TRun o (k (st b))) st
    | TRun o (Put b s k) => interp n f (TRun o k) (store_set st b s)
    | TRun o (Emit out m k) => both (TSend (f_outs f o out) m) (TRun o k)
    end
  end.
Lemma interp_sound n : forall f t st st' tr, interp n f t st = Some (st', tr) -> exec beh conv f t st st' tr.
Proof.
  induction n as [|n IH]; intros f t st st' tr H; [discriminate|]. cbn [interp] in H.
  assert (HB : forall t1 t2 r, match interp n f t1 st with Some (s1, r1) => match interp n f t2 s1 with Some (s2, r2) => Some (s2, r1 ++ r2) | None => None end | None => None end = Some r ->
    exists s1 r1 r2, exec beh conv f t1 st s1 r1 /\ exec beh conv f t2 s1 (fst r) r2 /\ snd r = r1 ++ r2).
  { intros t1 t2 r E. destruct (interp n f t1 st) as [[s1 r1]|] eqn:E1; [|discriminate]. destruct (interp n f t2 s1) as [[s2 r2]|] eqn:E2; [|discriminate]. injection E as <-. cbn [fst snd].
    exists s1, r1, r2. split; [apply IH; exact E1|]. split; [apply IH; exact E2|reflexivity]. }
  destruct t as [[o i] m|[|x l] m|o [|b k|b s k|out m k]|[|[k src] l] m].
  - destruct (node_case (f_kind f o)) as [(b & K)|NB].
    + rewrite K in H. destruct (interp n f (TRun o (beh b i m)) st) as [[s r]|] eqn:E; [|discriminate]. injection H as <- <-. eapply E_box; [exact K|]. apply IH. exact E.
    + apply E_pass; [exact NB|]. apply IH. destruct (f_kind f o); try exact H. destruct (NB b). reflexivity.
  - injection H as <- <-. constructor.
  - apply HB in H as (s1 & r1 & r2 & A & B & C). cbn [fst snd] in *. subst tr. econstructor; eassumption.
  - injection H as <- <-. constructor.
  - constructor. apply IH. exact H.
  - constructor. apply IH. exact H.
  - apply HB in H as (s1 & r1 & r2 & A & B & C). cbn [fst snd] in *. subst tr. econstructor; eassumption.
  - injection H as <- <-. constructor.
  - destruct (convert conv k m) as [m'|] eqn:E.
    + apply HB in H as (s1 & r1 & r2 & A & B & C). cbn [fst snd] in *. subst tr. eapply E_pcons; eassumption.
    + apply E_pskip; [exact E|]. apply IH. exact H.
Qed.
Definition final (f : flow) (t : @task msg Z) (st : Z -> Z) : Z -> Z := match interp 60 f t st with Some (s, _) => s | None => st end.
Lemma interp_trace f t st tr : (match interp 60 f t st with Some (_, r) => Some r | None => None end) = Some tr -> exec beh conv f t st (final f t st) tr.
Proof.
  intros H. apply (interp_sound 60). unfold final. destruct (interp 60 f t st) as [[s r]|]; [|discriminate]. congruence.
Qed.
Example drawn_run : exists st', exec beh conv (drawn kind conns) (TDeliver (1, 0%nat) (Some 5)) (fun _ => 3) st' trace5 /\ st' 7 = 4.
Proof. eexists. split; [apply interp_trace; vm_compute; reflexivity|vm_compute; reflexivity]. Qed.

(** The compiled patch exists, and by the theorem above it does the same. *)
Definition g' : graph := match reduce todo g with Some x => x | None => g end.
Definition lists (o : Z) (i : nat) : list (Z * nat) := match on_messages (place_of (kinds_after kind todo)) g' 5 o i with Some l => l | None => [] end.
Lemma kinds o : kinds_after kind todo o <> NNone -> In o [4; 5; 9; 11; 17; 18; 21; 22].
Proof.
  change (kinds_after kind todo o) with (if o =? 7 then NNone else if o =? 17 then NBox 7 else if o =? 1 then NNone else if o =? 11 then NBox 1 else
    if o =? 2 then NNone else if o =? 21 then NCast KBang else if o =? 22 then NCast KFloat else if o =? 8 then NNone else if o =? 18 then NBox 8 else kind o).
  intros H. repeat match type of H with (if ?x =? ?y then _ else _) <> _ => destruct (Z.eqb_spec x y); [first [congruence|subst; cbn; tauto]|] end.
  unfold kind in H. repeat match type of H with match ?z with _ => _ end <> _ => destruct z; try (exfalso; apply H; reflexivity) end; cbn; first [congruence|tauto|lia].
Qed.
Example compiled_run : exists st', exec beh conv (compiled (kinds_after kind todo) nout lists) (TDeliver (11, 0%nat) (Some 5)) (fun _ => 3) st' trace5 /\ st' 7 = 4.
Proof.
  destruct drawn_run as (st' & H & E). exists st'. split; [|exact E].
  destruct (message_order_preserved msg Z beh conv nin nout kind conns todo g nosame built patch_ok outlets) as (g1 & E1 & X).
  assert (g' = g1) by (unfold g'; rewrite E1; reflexivity). subst g1.
  apply (X 5%nat lists) with (x := 1) (b := 1); [|reflexivity|exact H].
  intros o i Ho. apply kinds in Ho.
  destruct (chain beh conv nin nout todo kind g patch_ok outlets) as (g1 & E2 & HP & _). assert (g' = g1) by congruence. subst g1.
  destruct (Nat.le_gt_cases (nout o) i) as [L|L].
  - assert (N : g_outs g' o i = []).
    { destruct (g_outs g' o i) as [|c l] eqn:G; [reflexivity|]. exfalso. destruct (sp_consistent _ _ _ _ _ HP) as (_ & V2 & _ & V4).
      assert (Hc : In c (g_outs g' o i)) by (rewrite G; left; reflexivity). destruct (V2 _ _ _ Hc) as (A & B). destruct (V4 _ _ _ Hc) as (C & _). rewrite A, B in C. lia. }
    unfold lists, on_messages, control_targets. rewrite N. reflexivity.
  - assert (i = O). { cbn in Ho. repeat (destruct Ho as [<- |Ho]; [cbn in L; lia|]). destruct Ho. } subst i.
    cbn in Ho. repeat (destruct Ho as [<- |Ho]; [vm_compute; reflexivity|]). destruct Ho.
Qed.
Example compiled_lists : lists 11 0 = [(22, 0%nat); (17, 0%nat); (21, 0%nat)] /\ lists 22 0 = [(18, 0%nat)] /\ lists 17 0 = [(18, 1%nat)] /\ lists 21 0 = [(18, 0%nat)].
Proof. vm_compute. repeat split. Qed.
End Ex.

(** ** Objects that feed themselves *)
(** An object wired to itself: the wire is dropped, the message it carries is lost. *)
Theorem self_connection_lost_refuted : exists (beh : Z -> nat -> Z -> prog Z Z) conv kind conns g,
  build conns = Some g /\
  (exists st' tr, exec beh conv (drawn kind conns) (TDeliver (1, 0%nat) 2) (fun _ => 0) st' tr /\ length tr = 3%nat) /\
  (forall st' tr, exec beh conv (flow_of kind g) (TDeliver (1, 0%nat) 2) (fun _ => 0) st' tr -> length tr = 1%nat).
Proof.
  exists (fun _ _ m => if 0 <? m then Emit O (m - 1) Ret else Ret), (fun _ m => Some m), (fun _ => NBox 1), [mkConn 1 0 1 0 true]. eexists. split; [reflexivity|]. split.
  - do 2 eexists. split.
    + eapply E_box; [reflexivity|]. cbn [Z.ltb Z.compare]. eapply E_emit; [|constructor].
      eapply (E_cons _ _ _ (1, 0%nat) []); [|constructor]. eapply E_box; [reflexivity|]. cbn [Z.ltb Z.compare Z.sub Z.add Z.opp Z.pos_sub Pos.pred_double]. eapply E_emit; [|constructor].
      eapply (E_cons _ _ _ (1, 0%nat) []); [|constructor]. eapply E_box; [reflexivity|]. constructor.
    + reflexivity.
  - intros st' tr H. inversion H; subst; [|match goal with X : forall b, _ <> NBox b |- _ => exfalso; exact (X 1 eq_refl) end].
    match goal with X : exec _ _ _ (TRun _ _) _ _ _ |- _ => cbn [Z.ltb Z.compare] in X; inversion X; subst end.
    repeat match goal with X : exec _ _ _ (TSend _ _) _ _ _ |- _ => vm_compute in X; inversion X; subst; clear X | X : exec _ _ _ (TRun _ Ret) _ _ _ |- _ => inversion X; subst; clear X end.
    reflexivity.
Qed.

(** An object fed back to itself through [t a]: whether the patch compiles depends on the order in
    which its objects are listed. *)
Theorem self_feeding_compile_refuted : exists conns g a b, build conns = Some g /\ reduce [a; b] g = None /\ reduce [b; a] g <> None.
Proof.
  exists [mkConn 1 0 2 0 true; mkConn 2 0 1 0 true]. eexists. exists (2, ASeq [None]), (1, ARename 11 1 1). split; [reflexivity|]. split; [reflexivity|discriminate].
Qed.

Print Assumptions message_order_preserved.
Print Assumptions message_effects_unique.
Print Assumptions self_connection_lost_refuted.
Print Assumptions self_feeding_compile_refuted.
