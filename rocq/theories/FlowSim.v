(** Simulation between message flows: nodes renamed, pass-through nodes expanded. *)
From Verif Require Import FlowModel FlowSpec.

Section Sim.
Context {M S : Type} (beh : Z -> nat -> M -> prog M S) (conv : ckind -> M -> option M).
Notation exec := (exec beh conv).
Notation convert := (convert conv).

Lemma send_app f A : forall B m st st1 st2 t1 t2, exec f (TSend A m) st st1 t1 -> exec f (TSend B m) st1 st2 t2 ->
  exec f (TSend (A ++ B) m) st st2 (t1 ++ t2).
Proof.
  induction A as [|x A IH]; intros B m st st1 st2 t1 t2 HA HB; cbn [app]; inversion HA; subst.
  - exact HB.
  - rewrite <- app_assoc. econstructor; [eassumption|]. eapply IH; eassumption.
Qed.
Lemma send_one f x m st st' tr : exec f (TDeliver x m) st st' tr -> exec f (TSend [x] m) st st' tr.
Proof. intros H. rewrite <- (app_nil_r tr). econstructor; [exact H|constructor]. Qed.

Section One.
Context (f f' : flow) (gone : Z -> bool) (exp : Z * nat -> list (Z * nat)) (ren : Z -> Z) (rank : Z * nat -> nat) (okout : Z -> nat -> Prop).
Definition pass_ok (a b : ckind * (Z * nat)) : Prop :=
  fst a = fst b /\ f_outs f' (fst (snd b)) (snd (snd b)) = flat_map exp (f_outs f (fst (snd a)) (snd (snd a))).
Definition piece_ok (oi : Z * nat) (a : ckind * (Z * nat)) (l : list (Z * nat)) : Prop :=
  let L := f_outs f (fst (snd a)) (snd (snd a)) in
  (fst a = KAny /\ l = flat_map exp L /\ (forall t, In t L -> gone (fst t) = true -> (rank t < rank oi)%nat)) \/
  (exists c, l = [(c, O)] /\ f_kind f' c = NCast (fst a) /\ f_outs f' c O = flat_map exp L).
Record sim : Prop := {
  sim_keep : forall o i, gone o = false -> exp (o, i) = [(ren o, i)];
  sim_box : forall o b, gone o = false -> f_kind f o = NBox b -> f_kind f' (ren o) = NBox b /\ (forall i m, emits_ok (okout o) (beh b i m)) /\ (forall j, okout o j -> f_outs f' (ren o) j = flat_map exp (f_outs f o j));
  sim_pass : forall o, gone o = false -> (forall b, f_kind f o <> NBox b) ->
    (forall b, f_kind f' (ren o) <> NBox b) /\ (forall i, Forall2 pass_ok (passes (f_kind f o) o i) (passes (f_kind f' (ren o)) (ren o) i));
  sim_gone : forall o, gone o = true -> (forall b, f_kind f o <> NBox b) /\
    forall i, exists pieces, exp (o, i) = concat pieces /\ Forall2 (piece_ok (o, i)) (passes (f_kind f o) o i) pieces
}.

Inductive rel : @task M S -> @task M S -> Prop :=
| rel_send L m : rel (TSend L m) (TSend (flat_map exp L) m)
| rel_deliver x m : rel (TDeliver x m) (TSend (exp x) m)
| rel_run o p b : gone o = false -> f_kind f o = NBox b -> emits_ok (okout o) p -> rel (TRun o p) (TRun (ren o) p)
| rel_pass l l' m : Forall2 pass_ok l l' -> rel (TPass l m) (TPass l' m)
| rel_piece oi l pieces m : Forall2 (piece_ok oi) l pieces -> rel (TPass l m) (TSend (concat pieces) m).

Lemma sim_forward : sim -> forall t st st' tr, exec f t st st' tr -> forall t', rel t t' -> exec f' t' st st' tr.
Proof.
  intros HS t st st' tr H. induction H; intros t' HR; inversion HR; subst; clear HR.
  - (* box *) destruct (gone o) eqn:G.
    + destruct (sim_gone HS o G) as (C & _). exfalso. exact (C b H).
    + rewrite (sim_keep HS o i G). apply send_one. destruct (sim_box HS o b G H) as (K & W & _).
      eapply E_box; [exact K|]. apply IHexec. econstructor; [eassumption|eassumption|apply W].
  - (* pass *) destruct (gone o) eqn:G.
    + destruct (sim_gone HS o G) as (_ & P). destruct (P i) as (pieces & E & F). rewrite E. apply IHexec. econstructor. exact F.
    + rewrite (sim_keep HS o i G). apply send_one. destruct (sim_pass HS o G H) as (K & P). apply E_pass; [exact K|].
      apply IHexec. constructor. apply P.
  - constructor.
  - cbn [flat_map]. eapply send_app; [apply IHexec1; constructor|apply IHexec2; constructor].
  - match goal with F : Forall2 _ _ _ |- _ => inversion F; subst end. constructor.
  - match goal with F : Forall2 _ _ _ |- _ => inversion F; subst end. constructor.
  - (* pskip, pass *) match goal with F : Forall2 _ _ _ |- _ => inversion F; subst end. destruct y as [k' src']. match goal with P : pass_ok _ _ |- _ => destruct P as (E & _) end. cbn [fst] in E. subst k'.
    apply E_pskip; [assumption|]. apply IHexec. constructor. assumption.
  - (* pskip, piece *) match goal with F : Forall2 _ _ _ |- _ => inversion F; subst end. cbn [concat]. match goal with P : piece_ok _ _ _ |- _ => destruct P as [(E & _)|(c & -> & K & O)] end.
    + cbn [fst] in E. subst k. discriminate.
    + cbn [fst] in K. rewrite <- (app_nil_l tr). eapply send_app; [|apply IHexec; econstructor; eassumption].
      apply send_one. apply E_pass; [intros b; rewrite K; discriminate|]. rewrite K. cbn [passes].
      apply E_pskip; [assumption|constructor].
  - (* pcons, pass *) match goal with F : Forall2 _ _ _ |- _ => inversion F; subst end. destruct y as [k' src']. match goal with P : pass_ok _ _ |- _ => destruct P as (E & E2) end. cbn [fst snd] in *. subst k'.
    eapply E_pcons; [eassumption| |apply IHexec2; constructor; assumption]. rewrite E2. apply IHexec1. constructor.
  - (* pcons, piece *) match goal with F : Forall2 _ _ _ |- _ => inversion F; subst end. cbn [concat]. match goal with P : piece_ok _ _ _ |- _ => destruct P as [(E & -> & _)|(c & -> & K & O)] end; cbn [fst snd] in *.
    + subst k. injection H as <-. eapply send_app; [apply IHexec1; constructor|apply IHexec2; econstructor; eassumption].
    + eapply send_app; [|apply IHexec2; econstructor; eassumption]. apply send_one. apply E_pass; [intros b; rewrite K; discriminate|].
      rewrite K. cbn [passes]. rewrite <- (app_nil_r tr1). eapply E_pcons; [eassumption| |constructor]. cbn [fst snd]. rewrite O. apply IHexec1. constructor.
  - constructor.
  - constructor. apply IHexec. econstructor; [eassumption|eassumption|]. match goal with W : emits_ok _ _ |- _ => apply W end.
  - constructor. apply IHexec. econstructor; eassumption.
  - match goal with W : emits_ok _ _ |- _ => destruct W as (W1 & W2) end. match goal with G : gone o = false, K : f_kind f o = NBox _ |- _ => destruct (sim_box HS o _ G K) as (_ & _ & O) end. econstructor; [rewrite O by exact W1; apply IHexec1; constructor|apply IHexec2; econstructor; eassumption].
Qed.

(** Executions with their size. *)
Inductive execn (g : flow) : nat -> @task M S -> (Z -> S) -> (Z -> S) -> list (Z * nat * M) -> Prop :=
| N_box n o i m b st st' tr : f_kind g o = NBox b -> execn g n (TRun o (beh b i m)) st st' tr ->
    execn g (Datatypes.S n) (TDeliver (o, i) m) st st' ((b, i, m) :: tr)
| N_pass n o i m st st' tr : (forall b, f_kind g o <> NBox b) -> execn g n (TPass (passes (f_kind g o) o i) m) st st' tr ->
    execn g (Datatypes.S n) (TDeliver (o, i) m) st st' tr
| N_nil m st : execn g O (TSend [] m) st st []
| N_cons n1 n2 x l m st st1 st2 tr1 tr2 : execn g n1 (TDeliver x m) st st1 tr1 -> execn g n2 (TSend l m) st1 st2 tr2 ->
    execn g (Datatypes.S (n1 + n2)) (TSend (x :: l) m) st st2 (tr1 ++ tr2)
| N_pnil m st : execn g O (TPass [] m) st st []
| N_pskip n k src l m st st' tr : convert k m = None -> execn g n (TPass l m) st st' tr -> execn g (Datatypes.S n) (TPass ((k, src) :: l) m) st st' tr
| N_pcons n1 n2 k src l m m' st st1 st2 tr1 tr2 : convert k m = Some m' -> execn g n1 (TSend (f_outs g (fst src) (snd src)) m') st st1 tr1 ->
    execn g n2 (TPass l m) st1 st2 tr2 -> execn g (Datatypes.S (n1 + n2)) (TPass ((k, src) :: l) m) st st2 (tr1 ++ tr2)
| N_ret o st : execn g O (TRun o Ret) st st []
| N_get n o b k st st' tr : execn g n (TRun o (k (st b))) st st' tr -> execn g (Datatypes.S n) (TRun o (Get b k)) st st' tr
| N_put n o b s k st st' tr : execn g n (TRun o k) (store_set st b s) st' tr -> execn g (Datatypes.S n) (TRun o (Put b s k)) st st' tr
| N_emit n1 n2 o out m k st st1 st2 tr1 tr2 : execn g n1 (TSend (f_outs g o out) m) st st1 tr1 -> execn g n2 (TRun o k) st1 st2 tr2 ->
    execn g (Datatypes.S (n1 + n2)) (TRun o (Emit out m k)) st st2 (tr1 ++ tr2).
Lemma exec_sized g t st st' tr : exec g t st st' tr -> exists n, execn g n t st st' tr.
Proof.
  induction 1; repeat match goal with H : exists n, _ |- _ => destruct H as (? & ?) end; eexists;
    first [eapply N_box; eassumption|eapply N_pass; eassumption|eapply N_nil|eapply N_cons; eassumption|eapply N_pnil|eapply N_pskip; eassumption
          |eapply N_pcons; eassumption|eapply N_ret|eapply N_get; eassumption|eapply N_put; eassumption|eapply N_emit; eassumption].
Qed.
Lemma send_split g A : forall k B m st st2 tr, execn g k (TSend (A ++ B) m) st st2 tr ->
  exists k1 k2 st1 t1 t2, (k1 <= k)%nat /\ (k2 <= k)%nat /\ tr = t1 ++ t2 /\ execn g k1 (TSend A m) st st1 t1 /\ execn g k2 (TSend B m) st1 st2 t2.
Proof.
  induction A as [|x A IH]; intros k B m st st2 tr H; cbn [app] in H.
  - exists O, k, st, [], tr. split; [lia|]. split; [lia|]. split; [reflexivity|]. split; [constructor|exact H].
  - inversion H; subst. match goal with H2 : execn _ n2 _ _ _ _ |- _ => apply IH in H2 as (k1 & k2 & s1 & t1 & t2 & L1 & L2 & -> & E1 & E2) end.
    exists (Datatypes.S (n1 + k1)), k2, s1, (tr1 ++ t1), t2. split; [lia|]. split; [lia|]. split; [apply app_assoc|].
    split; [econstructor; eassumption|exact E2].
Qed.

Definition back (n : nat) : Prop :=
  (forall o i m st st' tr, gone o = false -> execn f' n (TDeliver (ren o, i) m) st st' tr -> exec f (TDeliver (o, i) m) st st' tr) /\
  (forall o p b st st' tr, gone o = false -> f_kind f o = NBox b -> emits_ok (okout o) p -> execn f' n (TRun (ren o) p) st st' tr -> exec f (TRun o p) st st' tr) /\
  (forall l l' m st st' tr, Forall2 pass_ok l l' -> execn f' n (TPass l' m) st st' tr -> exec f (TPass l m) st st' tr) /\
  (forall L m st st' tr, execn f' n (TSend (flat_map exp L) m) st st' tr -> exec f (TSend L m) st st' tr).

Lemma back_list n r : (forall x i m st st' tr k, (k <= n)%nat -> gone x = true -> (rank (x, i) < r)%nat ->
    execn f' k (TSend (exp (x, i)) m) st st' tr -> exec f (TDeliver (x, i) m) st st' tr) ->
  (forall k, (k < n)%nat -> back k) -> sim -> forall L k m st st' tr, (k <= n)%nat -> (forall t, In t L -> gone (fst t) = true -> (rank t < r)%nat) ->
  execn f' k (TSend (flat_map exp L) m) st st' tr -> exec f (TSend L m) st st' tr.
Proof.
  intros Hgone IH HS. induction L as [|[x i] L IHL]; intros k m st st' tr Hk HR H; cbn [flat_map] in H.
  - inversion H; subst. constructor.
  - apply send_split in H as (k1 & k2 & s1 & t1 & t2 & L1 & L2 & -> & E1 & E2). econstructor.
    + destruct (gone x) eqn:G.
      * apply (Hgone x i m st s1 t1 k1); [lia|exact G|apply (HR (x, i)); [left; reflexivity|exact G]|exact E1].
      * rewrite (sim_keep HS x i G) in E1. inversion E1; subst.
        match goal with X : execn _ _ (TSend [] _) _ _ _ |- _ => inversion X; subst end. rewrite app_nil_r.
        destruct (IH n1) as (B1 & _); [lia|]. apply B1; assumption.
    + eapply IHL; [|intros t Ht; apply HR; right; exact Ht|exact E2]. lia.
Qed.
Lemma back_gone n : (forall k, (k < n)%nat -> back k) -> sim -> forall r x i m st st' tr k, (k <= n)%nat -> gone x = true -> (rank (x, i) < r)%nat ->
  execn f' k (TSend (exp (x, i)) m) st st' tr -> exec f (TDeliver (x, i) m) st st' tr.
Proof.
  intros IH HS. induction r as [|r IHr]; intros x i m st st' tr k Hk G Hr H; [lia|].
  destruct (sim_gone HS x G) as (NB & P). destruct (P i) as (pieces & E & F). rewrite E in H. apply E_pass; [exact NB|].
  clear E P. revert k Hk st st' tr H. induction F as [|[c src] piece l pieces PO F IHF]; intros k Hk st st' tr H; cbn [concat] in H.
  - inversion H; subst. constructor.
  - apply send_split in H as (k1 & k2 & s1 & t1 & t2 & L1 & L2 & -> & E1 & E2).
    assert (H2 : exec f (TPass l m) s1 st' t2) by (eapply IHF; [|exact E2]; lia).
    destruct PO as [(Ek & -> & Hrank)|(cc & -> & K & O)]; cbn [fst snd] in *.
    + subst c. eapply E_pcons; [reflexivity| |exact H2].
      eapply (back_list n r); [intros; eapply IHr; eassumption|exact IH|exact HS| | |exact E1].
      * lia.
      * intros t Ht Gt. specialize (Hrank t Ht Gt). lia.
    + inversion E1; subst. match goal with X : execn _ _ (TSend [] _) _ _ _ |- _ => inversion X; subst end. rewrite app_nil_r.
      match goal with X : execn _ _ (TDeliver _ _) _ _ _ |- _ => inversion X; subst end; [congruence|].
      match goal with X : execn _ _ (TPass _ _) _ _ _ |- _ => rewrite K in X; cbn [passes] in X; inversion X; subst end.
      * match goal with X : execn _ _ (TPass [] _) _ _ _ |- _ => inversion X; subst end. rewrite app_nil_l. apply E_pskip; assumption.
      * match goal with X : execn _ _ (TPass [] _) _ _ _ |- _ => inversion X; subst end. rewrite app_nil_r. eapply E_pcons; [eassumption| |exact H2].
        cbn [fst snd] in *. match goal with X : execn _ ?q (TSend (f_outs f' cc 0) _) _ _ _ |- _ => rewrite O in X; destruct (IH q) as (_ & _ & _ & B4); [lia|]; eapply B4; exact X end.
Qed.
Lemma node_case (n : node) : (exists b, n = NBox b) \/ (forall b, n <> NBox b).
Proof. destruct n; [left; eexists; reflexivity|right; discriminate..]. Qed.
Lemma sim_back : sim -> forall n, back n.
Proof.
  intros HS n. induction n as [n IH] using (well_founded_induction lt_wf). split; [|split; [|split]].
  - intros o i m st st' tr G H. inversion H; subst.
    + destruct (node_case (f_kind f o)) as [(b0 & K)|NB].
      * destruct (sim_box HS o b0 G K) as (K2 & W & _). assert (b0 = b) by congruence. subst b0. eapply E_box; [exact K|].
        destruct (IH n0) as (_ & B2 & _); [lia|]. eapply B2; [eassumption|eassumption|apply W|eassumption].
      * destruct (sim_pass HS o G NB) as (C & _). exfalso. eapply C. eassumption.
    + assert (NB : forall b, f_kind f o <> NBox b). { intros b Kb. destruct (sim_box HS o b G Kb) as (C & _). congruence. }
      destruct (sim_pass HS o G NB) as (_ & P). apply E_pass; [exact NB|]. destruct (IH n0) as (_ & _ & B3 & _); [lia|]. eapply B3; [apply P|eassumption].
  - intros o p b st st' tr G K W H. inversion H; subst; cbn [emits_ok] in W.
    + constructor.
    + constructor. destruct (IH n0) as (_ & B2 & _); [lia|]. eapply B2; [eassumption|eassumption|apply W|eassumption].
    + constructor. destruct (IH n0) as (_ & B2 & _); [lia|]. eapply B2; eassumption.
    + destruct W as (W1 & W2). destruct (sim_box HS o b G K) as (_ & _ & O). econstructor.
      * destruct (IH n1) as (_ & _ & _ & B4); [lia|]. apply B4. rewrite <- O by exact W1. eassumption.
      * destruct (IH n2) as (_ & B2 & _); [lia|]. eapply B2; eassumption.
  - intros l l' m st st' tr F H. inversion H; subst.
    + inversion F; subst. constructor.
    + inversion F; subst. destruct x as [k' s']. match goal with P : pass_ok _ _ |- _ => destruct P as (E & _) end. cbn [fst] in E. subst k'.
      apply E_pskip; [assumption|]. destruct (IH n0) as (_ & _ & B3 & _); [lia|]. eapply B3; eassumption.
    + inversion F; subst. destruct x as [k' s']. match goal with P : pass_ok _ _ |- _ => destruct P as (E & O) end. cbn [fst snd] in *. subst k'.
      eapply E_pcons; [eassumption| |].
      * destruct (IH n1) as (_ & _ & _ & B4); [lia|]. apply B4. cbn [fst snd]. rewrite <- O. eassumption.
      * destruct (IH n2) as (_ & _ & B3 & _); [lia|]. eapply B3; eassumption.
  - intros L m st st' tr H.
    assert (Hex : exists r, forall t, In t L -> gone (fst t) = true -> (rank t < r)%nat).
    { clear. induction L as [|x L (r & Hr)]; [exists O; intros t []|]. exists (Datatypes.S (Nat.max r (rank x))).
      intros t [<- | Ht] Gt; [lia|]. specialize (Hr t Ht Gt). lia. }
    destruct Hex as (r & Hr). eapply (back_list n r); [|exact IH|exact HS| |exact Hr|exact H]; [|lia].
    intros x i m0 s s' t k Hk G Hrk Hx. eapply (back_gone n IH HS r); eassumption.
Qed.

Theorem sim_send : sim -> forall L m st st' tr, exec f (TSend L m) st st' tr <-> exec f' (TSend (flat_map exp L) m) st st' tr.
Proof.
  intros HS L m st st' tr. split; intros H.
  - eapply sim_forward; [exact HS|exact H|constructor].
  - apply exec_sized in H as (n & H). destruct (sim_back HS n) as (_ & _ & _ & B4). apply B4. exact H.
Qed.
End One.
End Sim.
