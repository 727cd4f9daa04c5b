(** The assigned buffers carry the right signals: invariant of buffer assignment and execution. *)
From Coq Require Import Permutation.
From Verif Require Import GraphModel GraphSpec OrderProofs BufferProofs.
Local Open Scope Z_scope.

Section Inv.
Context {A : Type} (g : patch) (f : nat -> list A -> nat -> A) (zero : A) (inp : nat -> A).
Notation value := (outlet_value g f zero inp).
Notation ivalue := (inlet_value g f zero inp).

Definition port (s : bstate) (c : conn) : buf := s.(outb) c.(c_from) c.(c_out).
Definition readers (s : bstate) (pend : list conn) (b : buf) : nat := length (filter (fun c => buf_eqb (port s c) b) pend).
Definition counted (s : bstate) (pend : list conn) (b : buf) : Prop :=
  match b with
  | BOut _ => False
  | BTmp _ _ => exists k, refs s.(pl) b = Some k /\ Z.of_nat (readers s pend b) <= k
  | _ => True
  end.
(** [pend]: the connections whose source has been computed and whose reader has not run. *)
Record Inv (pend : list conn) (s : bstate) (m : mem) : Prop := {
  inv_ok : pools_ok s.(pl);
  inv_zero : m BZero = zero;
  inv_in : forall ch, m (BIn ch) = inp ch;
  inv_value : forall c, In c pend -> value c.(c_from) c.(c_out) (m (port s c));
  inv_count : forall c, In c pend -> counted s pend (port s c) }.

Lemma readers_perm s l l' b : Permutation l l' -> readers s l b = readers s l' b.
Proof.
  unfold readers. induction 1; cbn; try (destruct (buf_eqb (port s x) b); cbn); try (destruct (buf_eqb (port s y) b); cbn); congruence.
Qed.
Lemma Inv_perm l l' s m : Permutation l l' -> Inv l s m -> Inv l' s m.
Proof.
  intros P I. pose proof (Permutation_sym P) as P'. constructor; try apply I.
  - intros c Hc. apply I. now apply (Permutation_in c P').
  - intros c Hc. pose proof (inv_count _ _ _ I c (Permutation_in c P' Hc)) as H.
    unfold counted in *. destruct (port s c) as [| | | t n]; auto.
    destruct H as (k & F & L). exists k. split; [exact F|]. now rewrite <- (readers_perm s l l').
Qed.

Lemma readers_app s a b x : readers s (a ++ b) x = (readers s a x + readers s b x)%nat.
Proof. unfold readers. now rewrite filter_app, app_length. Qed.
Lemma readers_cons s c l x : readers s (c :: l) x = ((if buf_eqb (port s c) x then 1 else 0) + readers s l x)%nat.
Proof. unfold readers. cbn. destruct (buf_eqb (port s c) x); reflexivity. Qed.
Lemma readers_ext s s' l x : (forall c, In c l -> port s' c = port s c) -> readers s' l x = readers s l x.
Proof.
  unfold readers. induction l as [| c l IH]; intros H; cbn; [reflexivity|].
  rewrite H by now left. destruct (buf_eqb _ _); cbn; rewrite IH; auto; intros c' Hc'; apply H; now right.
Qed.
Lemma readers_none s l x : (forall c, In c l -> port s c <> x) -> readers s l x = 0%nat.
Proof.
  unfold readers. induction l as [| c l IH]; intros H; cbn; [reflexivity|].
  destruct (buf_eqb_spec (port s c) x) as [E | _]; [exfalso; apply (H c); [now left | exact E]|].
  apply IH. intros c' Hc'. apply H. now right.
Qed.
Lemma readers_le s l x : (readers s l x <= length l)%nat.
Proof. unfold readers. induction l as [| c l IH]; cbn; [lia|]. destruct (buf_eqb _ _); cbn; lia. Qed.

(** The reader at connection [c] has run. *)
Lemma consume c pend s m i' : Inv (c :: pend) s m ->
  exists P, release s.(pl) (port s c) = Some P /\ Inv pend {| inb := i'; outb := s.(outb); pl := P |} m /\
    (forall b, refs s.(pl) b <> None -> refs P b <> None).
Proof.
  intros I. pose proof (inv_count _ _ _ I c (or_introl eq_refl)) as Hc.
  assert (Hp : forall c', port {| inb := i'; outb := s.(outb); pl := s.(pl) |} c' = port s c') by reflexivity.
  unfold release. destruct (port s c) as [| ch | ch | t n] eqn:Eb; cbn [counted] in Hc; cbn [retain].
  - exists s.(pl). split; [reflexivity|]. split; [|auto]. constructor; try apply I.
    + intros c' Hc'. apply (inv_value _ _ _ I). now right.
    + intros c' Hc'. pose proof (inv_count _ _ _ I c' (or_intror Hc')) as H. unfold counted in *. change (port _ c') with (port s c').
      destruct (port s c') as [| | | t n] eqn:E'; auto. destruct H as (k & F & L). exists k. split; [exact F|].
      rewrite readers_cons in L. rewrite (readers_ext s) by reflexivity. lia.
  - exists s.(pl). split; [reflexivity|]. split; [|auto]. constructor; try apply I.
    + intros c' Hc'. apply (inv_value _ _ _ I). now right.
    + intros c' Hc'. pose proof (inv_count _ _ _ I c' (or_intror Hc')) as H. unfold counted in *. change (port _ c') with (port s c').
      destruct (port s c') as [| | | t n] eqn:E'; auto. destruct H as (k & F & L). exists k. split; [exact F|].
      rewrite readers_cons in L. rewrite (readers_ext s) by reflexivity. lia.
  - destruct Hc.
  - destruct Hc as (k & F & L).
    destruct (retain_spec s.(pl) t n k (-1) (inv_ok _ _ _ I) F) as (P & E & OK & F' & O & _).
    exists P. split; [exact E|]. split.
    + constructor; try apply I; [exact OK | |].
      * intros c' Hc'. apply (inv_value _ _ _ I). now right.
      * intros c' Hc'. pose proof (inv_count _ _ _ I c' (or_intror Hc')) as H. unfold counted in *. change (port _ c') with (port s c').
        destruct (port s c') as [| | | u k'] eqn:E'; auto. cbn [pl]. rewrite (readers_ext s) by reflexivity.
        destruct (buf_eqb_spec (BTmp u k') (BTmp t n)) as [Eq | Ne].
        -- rewrite Eq in *. exists (k + -1). split; [exact F'|]. rewrite readers_cons, Eb, buf_eqb_refl in L. lia.
        -- rewrite O by exact Ne. destruct H as (k2 & F2 & L2). exists k2. split; [exact F2|].
           rewrite readers_cons in L2. lia.
    + intros b Hb. destruct (buf_eqb_spec b (BTmp t n)) as [-> | Ne]; [congruence | now rewrite O].
Qed.

(** The source of [c] is handed on to outlet [j] of [o], with connections [L]. *)
Lemma forward c pend s m o j L n : Inv (c :: pend) s m ->
  (forall c', In c' L -> c'.(c_from) = o /\ c'.(c_out) = j) ->
  (forall c', In c' pend -> ~ (c'.(c_from) = o /\ c'.(c_out) = j)) ->
  ~ (c.(c_from) = o /\ c.(c_out) = j) ->
  value o j (m (port s c)) ->
  Z.of_nat (length L) <= n ->
  exists P, retain s.(pl) (port s c) (n - 1) = Some P /\
    Inv (L ++ pend) {| inb := s.(inb); outb := upd2 s.(outb) o j (port s c); pl := P |} m /\
    (forall b, refs s.(pl) b <> None -> refs P b <> None).
Proof.
  intros I HL Hp Hc0 Hv Hn. pose proof (inv_count _ _ _ I c (or_introl eq_refl)) as Hc.
  assert (PL : forall P c', In c' L -> port {| inb := s.(inb); outb := upd2 s.(outb) o j (port s c); pl := P |} c' = port s c).
  { intros P c' H. apply HL in H as [E1 E2]. unfold port at 1; cbn [outb]. unfold upd2. rewrite E1, E2, !Nat.eqb_refl. reflexivity. }
  assert (PP : forall P c', In c' pend -> port {| inb := s.(inb); outb := upd2 s.(outb) o j (port s c); pl := P |} c' = port s c').
  { intros P c' H. apply Hp in H. unfold port at 1; cbn [outb]. unfold upd2.
    destruct (Nat.eqb_spec (c_from c') o), (Nat.eqb_spec (c_out c') j); cbn; try reflexivity. tauto. }
  assert (VV : forall P c', In c' (L ++ pend) ->
     value (c_from c') (c_out c') (m (port {| inb := s.(inb); outb := upd2 s.(outb) o j (port s c); pl := P |} c'))).
  { intros P c' H. apply in_app_or in H as [H | H].
    - rewrite PL by exact H. apply HL in H as [-> ->]. exact Hv.
    - rewrite PP by exact H. apply (inv_value _ _ _ I). now right. }
  assert (RR : forall P b, readers {| inb := s.(inb); outb := upd2 s.(outb) o j (port s c); pl := P |} (L ++ pend) b =
     ((if buf_eqb (port s c) b then length L else 0) + readers s pend b)%nat).
  { intros P b. rewrite readers_app. f_equal; [|apply readers_ext; apply PP].
    destruct (buf_eqb_spec (port s c) b) as [E | E].
    - unfold readers. clear - PL E. induction L as [| x L IH]; cbn [filter length]; [reflexivity|].
      rewrite PL by now left. rewrite E, buf_eqb_refl. cbn [length]. f_equal. rewrite E in IH. apply IH. intros P' c' H. rewrite <- E. apply PL. now right.
    - apply readers_none. intros c' H. now rewrite PL. }
  destruct (port s c) as [| ch | ch | t k0] eqn:Eb; cbn [counted] in Hc; cbn [retain].
  - exists s.(pl). split; [reflexivity|]. split; [|auto]. constructor; try apply I; [apply VV|].
    intros c' H. unfold counted. rewrite RR. cbn [pl]. apply in_app_or in H as [H | H]; [now rewrite PL|].
    rewrite PP by exact H. pose proof (inv_count _ _ _ I c' (or_intror H)) as HH. unfold counted in HH.
    destruct (port s c') as [| | | u n']; auto. destruct HH as (k & F & Lk). exists k. split; [exact F|].
    rewrite readers_cons in Lk. cbn [buf_eqb]. lia.
  - exists s.(pl). split; [reflexivity|]. split; [|auto]. constructor; try apply I; [apply VV|].
    intros c' H. unfold counted. rewrite RR. cbn [pl]. apply in_app_or in H as [H | H]; [now rewrite PL|].
    rewrite PP by exact H. pose proof (inv_count _ _ _ I c' (or_intror H)) as HH. unfold counted in HH.
    destruct (port s c') as [| | | u n']; auto. destruct HH as (k & F & Lk). exists k. split; [exact F|].
    rewrite readers_cons in Lk. cbn [buf_eqb]. lia.
  - destruct Hc.
  - destruct Hc as (k & F & Lk).
    destruct (retain_spec s.(pl) t k0 k (n - 1) (inv_ok _ _ _ I) F) as (P & E & OK & F' & O & _).
    exists P. split; [exact E|]. split.
    + constructor; try apply I; [exact OK | apply VV |].
      assert (T : exists k', refs P (BTmp t k0) = Some k' /\ Z.of_nat ((length L) + readers s pend (BTmp t k0)) <= k').
      { exists (k + (n - 1)). split; [exact F'|]. rewrite readers_cons, Eb, buf_eqb_refl in Lk. lia. }
      intros c' H. unfold counted. rewrite RR. cbn [pl]. apply in_app_or in H as [H | H].
      * rewrite PL by exact H. rewrite buf_eqb_refl. exact T.
      * rewrite PP by exact H. pose proof (inv_count _ _ _ I c' (or_intror H)) as HH. unfold counted in HH.
        destruct (port s c') as [| | | u n']; auto.
        destruct (buf_eqb_spec (BTmp t k0) (BTmp u n')) as [<- | Ne]; [exact T|].
        rewrite O by congruence. destruct HH as (k2 & F2 & L2). exists k2. split; [exact F2|].
        rewrite readers_cons in L2. lia.
    + intros b Hb. destruct (buf_eqb_spec b (BTmp t k0)) as [-> | Ne]; [congruence | now rewrite O].
Qed.

(** Connections leaving an outlet that holds the zero buffer or an input channel *)
Lemma forward_const pend s m o j L : Inv pend s m ->
  (forall c', In c' L -> c'.(c_from) = o /\ c'.(c_out) = j) ->
  value o j (m (s.(outb) o j)) ->
  match s.(outb) o j with BZero | BIn _ => True | _ => False end ->
  Inv (L ++ pend) s m.
Proof.
  intros I HL Hv Hb.
  assert (PL : forall c', In c' L -> port s c' = s.(outb) o j).
  { intros c' H. apply HL in H as [E1 E2]. unfold port. now rewrite E1, E2. }
  constructor; try apply I.
  - intros c' H. apply in_app_or in H as [H | H]; [|now apply (inv_value _ _ _ I)].
    rewrite PL by exact H. apply HL in H as [-> ->]. exact Hv.
  - intros c' H. unfold counted. apply in_app_or in H as [H | H].
    + rewrite PL by exact H. destruct (outb s o j); tauto.
    + pose proof (inv_count _ _ _ I c' H) as HH. unfold counted in HH. destruct (port s c') as [| | | u n']; auto.
      destruct HH as (k & F & Lk). exists k. split; [exact F|]. rewrite readers_app.
      rewrite (readers_none s L); [exact Lk|]. intros c'' H''. rewrite PL by exact H''. destruct (outb s o j); try tauto; discriminate.
Qed.

(** An outlet takes a buffer, and its object stores [v] there. *)
Lemma produce pend s m o j L t cnt ex n P v : Inv pend s m ->
  (forall c', In c' L -> c'.(c_from) = o /\ c'.(c_out) = j) ->
  (forall c', In c' pend -> ~ (c'.(c_from) = o /\ c'.(c_out) = j)) ->
  value o j v ->
  Z.of_nat (length L) <= cnt ->
  get_buffer s.(pl) t cnt ex = (n, P) ->
  Inv (L ++ pend) {| inb := s.(inb); outb := upd2 s.(outb) o j (BTmp t n); pl := P |} (store m (BTmp t n) v) /\
  (forall b, refs s.(pl) b <> None -> refs P b <> None).
Proof.
  intros I HL Hp Hv Hn G.
  destruct (get_buffer_spec _ _ _ _ _ _ (inv_ok _ _ _ I) G) as (OK & Fr & F & O & _).
  set (s' := {| inb := s.(inb); outb := upd2 s.(outb) o j (BTmp t n); pl := P |}).
  assert (PL : forall c', In c' L -> port s' c' = BTmp t n).
  { intros c' H. apply HL in H as [E1 E2]. unfold port, s'; cbn [outb]. unfold upd2. rewrite E1, E2, !Nat.eqb_refl. reflexivity. }
  assert (PP : forall c', In c' pend -> port s' c' = port s c').
  { intros c' H. apply Hp in H. unfold port at 1, s'; cbn [outb]. unfold upd2.
    destruct (Nat.eqb_spec (c_from c') o), (Nat.eqb_spec (c_out c') j); cbn; try reflexivity. tauto. }
  assert (NN : forall c', In c' pend -> port s c' <> BTmp t n).
  { intros c' H E. pose proof (inv_count _ _ _ I c' H) as HH. unfold counted in HH. rewrite E in HH.
    destruct HH as (k & Fk & Lk).
    assert (1 <= readers s pend (BTmp t n))%nat.
    { unfold readers. apply in_split in H as (a & b & ->). rewrite filter_app, app_length. cbn. rewrite E, buf_eqb_refl. cbn. lia. }
    destruct Fr as [[F0 _] | F0]; rewrite F0 in Fk; [injection Fk as <-; lia | discriminate]. }
  split.
  - constructor.
    + exact OK.
    + unfold store. cbn. apply I.
    + intros ch. unfold store. cbn. apply I.
    + intros c' H. apply in_app_or in H as [H | H].
      * rewrite PL by exact H. unfold store. rewrite buf_eqb_refl. apply HL in H as [-> ->]. exact Hv.
      * rewrite PP by exact H. unfold store. destruct (buf_eqb_spec (port s c') (BTmp t n)) as [E | E]; [exfalso; now apply (NN c')|].
        now apply (inv_value _ _ _ I).
    + intros c' H. unfold counted. apply in_app_or in H as [H | H].
      * rewrite PL by exact H. exists cnt. split; [exact F|]. rewrite readers_app.
        rewrite (readers_none s' pend); [|intros c'' H''; rewrite PP by exact H''; now apply NN].
        pose proof (readers_le s' L (BTmp t n)). lia.
      * rewrite PP by exact H. pose proof (inv_count _ _ _ I c' H) as HH. unfold counted in HH.
        destruct (port s c') as [| | | u n'] eqn:E'; auto.
        assert (Ne : BTmp u n' <> BTmp t n) by (rewrite <- E'; now apply NN).
        cbn [pl s']. rewrite O by exact Ne. destruct HH as (k2 & F2 & L2). exists k2. split; [exact F2|].
        rewrite readers_app, (readers_none s' L); [|intros c'' H''; rewrite PL by exact H''; congruence].
        rewrite (readers_ext s) by exact PP. exact L2.
  - intros b Hb. destruct (buf_eqb_spec b (BTmp t n)) as [-> | Ne]; [congruence | now rewrite O].
Qed.
End Inv.
