(** The loops of buffer assignment, and one visited object. *)
From Coq Require Import Permutation.
From Verif Require Import GraphModel GraphSpec OrderProofs BufferProofs GraphProofs.
Local Open Scope Z_scope.

Lemma in_signals l c : In c (signals l) <-> In c l /\ c.(c_sig) = true.
Proof. apply filter_In. Qed.
Lemma NoDup_flat_map_key {X Y Z0} (h : X -> list Y) (key : X -> Z0) (d : Y -> Z0) (l : list X) :
  NoDup (map key l) -> (forall p, In p l -> NoDup (h p)) -> (forall p x, In p l -> In x (h p) -> d x = key p) ->
  NoDup (flat_map h l).
Proof.
  induction l as [| p l IH]; cbn; intros N H D; [constructor|]. inversion N as [| ? ? Np N']; subst.
  apply NoDup_app_intro.
  - apply H. now left.
  - apply IH; [exact N' | intros q Hq; apply H; now right | intros q x Hq; apply D; now right].
  - intros x H1 H2. apply in_flat_map in H2 as (q & Hq & H2). apply Np.
    rewrite <- (D p x (or_introl eq_refl) H1), (D q x (or_intror Hq) H2). now apply in_map.
Qed.
Lemma number_fst {X} (l : list X) : map fst (number l) = seq 0 (length l).
Proof.
  unfold number. generalize 0%nat. induction l as [| x l IH]; intros n; cbn; [reflexivity | now rewrite IH].
Qed.
Lemma number_snd {X} (l : list X) : map snd (number l) = l.
Proof.
  unfold number. generalize 0%nat. induction l as [| x l IH]; intros n; cbn; [reflexivity | now rewrite IH].
Qed.
Lemma number_in {X} (l : list X) i x : In (i, x) (number l) <-> nth_error l i = Some x.
Proof.
  unfold number. rewrite <- (Nat.sub_0_r i) at 2. assert (0 <= i)%nat as Hi by lia. revert Hi. generalize 0%nat.
  induction l as [| y l IH]; intros n Hi; cbn.
  - destruct (i - n)%nat; cbn; split; [tauto | discriminate | tauto | discriminate].
  - destruct (Nat.eq_dec n i) as [-> | Hn].
    + rewrite Nat.sub_diag. cbn. split.
      * intros [[= ->] | H]; [reflexivity|]. apply in_combine_l, in_seq in H. lia.
      * intros [= ->]. now left.
    + replace (i - n)%nat with (S (i - S n)) by lia. cbn. rewrite <- IH by lia. split.
      * intros [[= -> _] | H]; [congruence | exact H].
      * auto.
Qed.

Section Loops.
Context {A : Type} (g : patch) (f : nat -> list A -> nat -> A) (zero : A) (inp : nat -> A).
Notation value := (outlet_value g f zero inp).
Notation ivalue := (inlet_value g f zero inp).
Notation Inv := (Inv g f zero inp).
Definition known (P P' : pools) : Prop := forall b, refs P b <> None -> refs P' b <> None.
Lemma known_trans P1 P2 P3 : known P1 P2 -> known P2 P3 -> known P1 P3.
Proof. intros H1 H2 b Hb. auto. Qed.
Lemma known_refl P : known P P.
Proof. intros b Hb. exact Hb. Qed.
Hypothesis single : forall o i, (length (signals (at_inlet g o i)) <= 1)%nat.

Lemma inlets_ok o il : forall R s m, NoDup il ->
  Inv (flat_map (fun i => signals (at_inlet g o i)) il ++ R) s m ->
  exists s', assign_inlets g o il s = Some s' /\ Inv R s' m /\ s'.(outb) = s.(outb) /\ known s.(pl) s'.(pl) /\
    (forall o' i', (o' <> o \/ ~ In i' il) -> s'.(inb) o' i' = s.(inb) o' i') /\
    (forall i c, In i il -> signals (at_inlet g o i) = [c] -> s'.(inb) o i = port s c) /\
    (forall i, In i il -> signals (at_inlet g o i) = [] -> s'.(inb) o i = s.(inb) o i).
Proof.
  induction il as [| i il IH]; intros R s m N I; cbn [assign_inlets flat_map] in *.
  - exists s. cbn in I. split; [reflexivity | split; [exact I | split; [reflexivity | split; [apply known_refl | split]]]].
    + reflexivity.
    + split; [intros i c [] | intros i []].
  - inversion N as [| ? ? Ni N']; subst. pose proof (single o i) as S1.
    destruct (signals (at_inlet g o i)) as [| c [| c2 cs]] eqn:E; [| |cbn in S1; lia].
    + destruct (IH R s m N' I) as (s' & E' & I' & O' & K' & F1 & F2 & F3).
      exists s'. split; [exact E' | split; [exact I' | split; [exact O' | split; [exact K' | split; [|split]]]]].
      * intros o' i' H. apply F1. destruct H as [H | H]; [now left | right; intros X; apply H; now right].
      * intros i' c [<- | H] X; [congruence | now apply F2].
      * intros i' [<- | H] X; [apply F1; now right | now apply F3].
    + assert (Hi : c_in c = i).
      { assert (In c (signals (at_inlet g o i))) as Hc by (rewrite E; now left).
        apply in_signals in Hc as [Hc _]. apply in_at_inlet in Hc. tauto. }
      rewrite <- app_assoc in I. cbn [app] in I.
      destruct (consume g f zero inp c _ s m (upd2 s.(inb) o c.(c_in) (port s c)) I) as (P & R1 & I1 & K1).
      change (outb s (c_from c) (c_out c)) with (port s c). rewrite R1.
      destruct (IH R _ m N' I1) as (s' & E' & I' & O' & K' & F1 & F2 & F3).
      exists s'. split; [exact E' | split; [exact I' | split; [exact O' | split; [exact (known_trans _ _ _ K1 K') | split; [|split]]]]].
      * intros o' i' H. rewrite F1 by (destruct H as [H | H]; [now left | right; intros X; apply H; now right]).
        cbn [inb]. unfold upd2. destruct (Nat.eqb_spec o' o) as [-> | Ho]; [|reflexivity].
        destruct (Nat.eqb_spec i' (c_in c)) as [-> | Hi']; [|reflexivity].
        destruct H as [H | H]; [congruence|]. exfalso. apply H. left. congruence.
      * intros i' c' [<- | H] X.
        -- rewrite F1 by now right. cbn [inb]. unfold upd2. rewrite Hi, !Nat.eqb_refl. cbn. rewrite E in X. now injection X as ->.
        -- rewrite (F2 i' c' H X). reflexivity.
      * intros i' [<- | H] X; [congruence|]. rewrite (F3 i' H X). cbn [inb]. unfold upd2.
        destruct (Nat.eqb_spec i' (c_in c)) as [-> | Hi']; [|now rewrite andb_false_r]. rewrite Hi in H. contradiction.
Qed.

(** Entering and leaving a graph are the same loop. *)
Record hand := { h_from : list conn; h_obj : nat; h_let : nat; h_count : Z }.
Fixpoint fwd (l : list hand) (s : bstate) : option bstate :=
  match l with
  | [] => Some s
  | h :: l' =>
      match h.(h_from) with
      | [] => fwd l' s
      | [c] =>
          match retain s.(pl) (port s c) (h.(h_count) - 1) with
          | Some P => fwd l' {| inb := s.(inb); outb := upd2 s.(outb) h.(h_obj) h.(h_let) (port s c); pl := P |}
          | None => None
          end
      | _ => None
      end
  end.
Definition enter_hands (gr : nat) (il : list (nat * nat)) : list hand :=
  map (fun p => {| h_from := signals (at_inlet g gr (fst p)); h_obj := snd p; h_let := 0;
                   h_count := Z.of_nat (length (signals (at_outlet g (snd p) 0))) |}) il.
Definition exit_hands (gr : nat) (ol : list (nat * nat)) : list hand :=
  map (fun p => {| h_from := signals (at_inlet g (snd p) 0); h_obj := gr; h_let := fst p;
                   h_count := Z.of_nat (length (at_outlet g gr (fst p))) |}) ol.
Lemma enter_fwd gr il s : enter_graph g gr il s = fwd (enter_hands gr il) s.
Proof.
  revert s. induction il as [| (i, inlet) il IH]; intros s; [reflexivity|].
  cbn [enter_graph enter_hands map fwd h_from h_obj h_let h_count fst snd].
  destruct (signals (at_inlet g gr i)) as [| c [| c2 cs]]; [apply IH | | reflexivity].
  change (outb s (c_from c) (c_out c)) with (port s c).
  destruct (retain _ _ _); [apply IH | reflexivity].
Qed.
Lemma exit_fwd gr ol s : exit_graph g gr ol s = fwd (exit_hands gr ol) s.
Proof.
  revert s. induction ol as [| (i, outlet) ol IH]; intros s; [reflexivity|].
  cbn [exit_graph exit_hands map fwd h_from h_obj h_let h_count fst snd].
  destruct (signals (at_inlet g outlet 0)) as [| c [| c2 cs]]; [apply IH | | reflexivity].
  change (outb s (c_from c) (c_out c)) with (port s c).
  destruct (retain _ _ _); [apply IH | reflexivity].
Qed.
Definition leaving (h : hand) : list conn := signals (at_outlet g h.(h_obj) h.(h_let)).
Definition from_port (c : conn) (h : hand) : Prop := c.(c_from) = h.(h_obj) /\ c.(c_out) = h.(h_let).
Lemma leaving_from h c : In c (leaving h) -> from_port c h.
Proof. intros H. apply in_signals in H as [H _]. apply in_at_outlet in H. split; tauto. Qed.

Lemma fwd_ok l : forall R s m,
  NoDup (map (fun h => (h.(h_obj), h.(h_let))) l) ->
  Inv (flat_map h_from l ++ R) s m ->
  (forall c h, In h l -> In c (flat_map h_from l ++ R) -> ~ from_port c h) ->
  (forall h, In h l -> (length h.(h_from) <= 1)%nat /\ Z.of_nat (length (leaving h)) <= h.(h_count) /\
     (forall c v, h.(h_from) = [c] -> value c.(c_from) c.(c_out) v -> value h.(h_obj) h.(h_let) v) /\
     (h.(h_from) = [] -> value h.(h_obj) h.(h_let) (m (s.(outb) h.(h_obj) h.(h_let))) /\
        match s.(outb) h.(h_obj) h.(h_let) with BZero | BIn _ => True | _ => False end)) ->
  exists s', fwd l s = Some s' /\ Inv (flat_map leaving l ++ R) s' m /\ s'.(inb) = s.(inb) /\ known s.(pl) s'.(pl) /\
    (forall o j, ~ In (o, j) (map (fun h => (h.(h_obj), h.(h_let))) l) -> s'.(outb) o j = s.(outb) o j).
Proof.
  induction l as [| h l IH]; intros R s m N I D H; cbn [fwd flat_map map] in *.
  - exists s. split; [reflexivity | split; [exact I | split; [reflexivity | split; [apply known_refl | reflexivity]]]].
  - inversion N as [| ? ? Nh N']; subst.
    destruct (H h (or_introl eq_refl)) as (H1 & H2 & H3 & H4).
    destruct (h_from h) as [| c [| c2 cs]] eqn:E; [| |cbn in H1; lia].
    + destruct (H4 eq_refl) as [V B]. cbn [app] in *.
      assert (I1 : Inv (flat_map h_from l ++ (leaving h ++ R)) s m).
      { apply (Inv_perm g f zero inp (leaving h ++ flat_map h_from l ++ R)); [apply Permutation_app_swap_app|].
        apply (forward_const g f zero inp _ s m h.(h_obj) h.(h_let)); auto. intros c' Hc'. now apply leaving_from. }
      destruct (IH (leaving h ++ R) s m N' I1) as (s' & E' & I' & O' & K' & F').
      * intros c' h' Hh' Hc' Fp. apply in_app_or in Hc' as [Hc' | Hc'];
          [apply (D c' h' (or_intror Hh')); [apply in_or_app; now left | exact Fp]|].
        apply in_app_or in Hc' as [Hc' | Hc']; [|apply (D c' h' (or_intror Hh')); [apply in_or_app; now right | exact Fp]].
        apply leaving_from in Hc' as [X1 X2]. destruct Fp as [X3 X4]. apply Nh. rewrite <- X1, <- X2, X3, X4.
        now apply (in_map (fun h => (h_obj h, h_let h))).
      * intros h' Hh'. apply H. now right.
      * exists s'. split; [exact E'|]. split; [|split; [exact O' | split; [exact K'|]]].
        -- apply (Inv_perm g f zero inp (flat_map leaving l ++ leaving h ++ R)); [|exact I'].
           rewrite <- app_assoc. apply Permutation_app_swap_app.
        -- intros o j Hoj. apply F'. intros X. apply Hoj. now right.
    + cbn [app] in *.
      destruct (forward g f zero inp c (flat_map h_from l ++ R) s m h.(h_obj) h.(h_let) (leaving h) h.(h_count) I) as (P & E1 & I0 & K0).
      * intros c' Hc'. now apply leaving_from.
      * intros c' Hc'. apply (D c' h (or_introl eq_refl)). now right.
      * apply (D c h (or_introl eq_refl)). now left.
      * apply (H3 c); [reflexivity|]. apply (inv_value _ _ _ _ _ _ _ I). now left.
      * exact H2.
      * rewrite E1. set (s1 := {| inb := inb s; outb := _; pl := P |}) in *.
        assert (I1 : Inv (flat_map h_from l ++ (leaving h ++ R)) s1 m).
        { apply (Inv_perm g f zero inp (leaving h ++ flat_map h_from l ++ R)); [apply Permutation_app_swap_app | exact I0]. }
        assert (Fr : forall o j, (o, j) <> (h_obj h, h_let h) -> outb s1 o j = outb s o j).
        { intros o j Hoj. cbn [outb s1]. unfold upd2. destruct (Nat.eqb_spec o (h_obj h)) as [-> | ]; [|reflexivity].
          destruct (Nat.eqb_spec j (h_let h)) as [-> | ]; [congruence | reflexivity]. }
        destruct (IH (leaving h ++ R) s1 m N' I1) as (s' & E' & I' & O' & K' & F').
        -- intros c' h' Hh' Hc' Fp. apply in_app_or in Hc' as [Hc' | Hc'];
             [apply (D c' h' (or_intror Hh')); [right; apply in_or_app; now left | exact Fp]|].
           apply in_app_or in Hc' as [Hc' | Hc']; [|apply (D c' h' (or_intror Hh')); [right; apply in_or_app; now right | exact Fp]].
           apply leaving_from in Hc' as [X1 X2]. destruct Fp as [X3 X4]. apply Nh. rewrite <- X1, <- X2, X3, X4.
           now apply (in_map (fun h => (h_obj h, h_let h))).
        -- intros h' Hh'. destruct (H h' (or_intror Hh')) as (G1 & G2 & G3 & G4). split; [exact G1 | split; [exact G2 | split; [exact G3|]]].
           intros X. rewrite Fr; [exact (G4 X)|]. intros X'. apply Nh. rewrite <- X'. now apply (in_map (fun h => (h_obj h, h_let h))).
        -- exists s'. split; [exact E'|]. split; [|split; [exact O' | split; [exact (known_trans _ _ _ K0 K')|]]].
           ++ apply (Inv_perm g f zero inp (flat_map leaving l ++ leaving h ++ R)); [|exact I'].
              rewrite <- app_assoc. apply Permutation_app_swap_app.
           ++ intros o j Hoj. rewrite F' by (intros X; apply Hoj; now right). apply Fr. intros X. apply Hoj. left. congruence.
Qed.

(** The outlets of an object, with the values it stores *)
Definition is_sig (p : nat * option bool) : bool := match snd p with Some _ => true | None => false end.
Definition leaving_outs (o : nat) (outs : list (nat * option bool)) : list conn :=
  flat_map (fun p => if is_sig p then signals (at_outlet g o (fst p)) else []) outs.
Definition stores (o : nat) (v : nat -> A) (s' : bstate) (js : list nat) (m : mem) : mem :=
  fold_left (fun m' j => store m' (s'.(outb) o j) (v j)) js m.
Lemma length_signals l : (length (signals l) <= length l)%nat.
Proof. unfold signals. induction l as [| c l IH]; cbn; [lia | destruct (c_sig c); cbn; lia]. Qed.

Lemma outlets_ok o (v : nat -> A) outs : forall ex R s m,
  NoDup (map fst outs) ->
  (forall i, In i (map fst outs) -> s.(outb) o i = BZero) ->
  (forall c, In c R -> ~ (c.(c_from) = o /\ In c.(c_out) (map fst outs))) ->
  (forall i, value o i (v i)) ->
  Inv R s m ->
  let s' := assign_outlets g o outs ex s in
  let m' := stores o v s' (map fst (filter is_sig outs)) m in
  Inv (leaving_outs o outs ++ R) s' m' /\ s'.(inb) = s.(inb) /\ known s.(pl) s'.(pl) /\
  (forall o' i', (o' <> o \/ ~ In i' (map fst outs)) -> s'.(outb) o' i' = s.(outb) o' i') /\
  (forall i, In i (map fst (filter is_sig outs)) -> exists t n, s'.(outb) o i = BTmp t n /\ refs s'.(pl) (BTmp t n) <> None) /\
  (forall ch, m' (BOut ch) = m (BOut ch)).
Proof.
  induction outs as [| (i, ty) outs IH]; intros ex R s m N Z0 D V I; cbn [assign_outlets].
  - cbn. split; [exact I | split; [reflexivity | split; [apply known_refl | split; [reflexivity | split; [intros i [] | reflexivity]]]]].
  - cbn [map fst] in *. inversion N as [| ? ? Ni N']; subst.
    destruct ty as [t|].
    + rewrite (Z0 i (or_introl eq_refl)).
      destruct (get_buffer s.(pl) t (Z.of_nat (length (at_outlet g o i))) ex) as [n P] eqn:G.
      set (s1 := {| inb := inb s; outb := upd2 (outb s) o i (BTmp t n); pl := P |}).
      destruct (produce g f zero inp R s m o i (signals (at_outlet g o i)) t (Z.of_nat (length (at_outlet g o i))) ex n P (v i) I) as [I1 K1].
      * intros c Hc. apply in_signals in Hc as [Hc _]. apply in_at_outlet in Hc. split; tauto.
      * intros c Hc [X1 X2]. apply (D c Hc). split; [exact X1 | left; congruence].
      * apply V.
      * pose proof (length_signals (at_outlet g o i)). lia.
      * exact G.
      * fold s1 in I1.
        assert (Fr : forall o' i', (o' <> o \/ i' <> i) -> outb s1 o' i' = outb s o' i').
        { intros o' i' Hoi. cbn [outb s1]. unfold upd2. destruct (Nat.eqb_spec o' o) as [-> | ]; [|reflexivity].
          destruct (Nat.eqb_spec i' i) as [-> | ]; [|reflexivity]. destruct Hoi; congruence. }
        specialize (IH (if Nat.eqb (length (at_outlet g o i)) 0 then BTmp t n :: ex else ex) (signals (at_outlet g o i) ++ R) s1 (store m (BTmp t n) (v i)) N').
        destruct IH as (I' & O' & K' & F' & T' & M').
        -- intros i' Hi'. rewrite Fr; [apply Z0; now right|]. right. intros ->. contradiction.
        -- intros c Hc [X1 X2]. apply in_app_or in Hc as [Hc | Hc].
           ++ apply in_signals in Hc as [Hc _]. apply in_at_outlet in Hc as (_ & _ & X3). apply Ni. now rewrite <- X3.
           ++ apply (D c Hc). split; [exact X1 | now right].
        -- exact V.
        -- exact I1.
        -- set (s' := assign_outlets g o outs _ s1) in *.
           assert (Eo : outb s' o i = BTmp t n).
           { rewrite F' by now right. cbn [outb s1]. unfold upd2. now rewrite !Nat.eqb_refl. }
           cbn [filter is_sig snd map fst]. unfold stores. cbn [fold_left].
           change (is_sig (i, Some t)) with true. cbn [map fst fold_left]. rewrite Eo. fold (stores o v s' (map fst (filter is_sig outs)) (store m (BTmp t n) (v i))).
           cbn [leaving_outs flat_map fst]. change (is_sig (i, Some t)) with true. cbv iota.
           split; [|split; [exact O' | split; [exact (known_trans _ _ _ K1 K') | split; [|split]]]].
           ++ apply (Inv_perm g f zero inp (leaving_outs o outs ++ signals (at_outlet g o i) ++ R)); [|exact I'].
              rewrite <- app_assoc. apply Permutation_app_swap_app.
           ++ intros o' i' Hoi. rewrite F' by (destruct Hoi as [Hoi | Hoi]; [now left | right; intros X; apply Hoi; now right]).
              apply Fr. destruct Hoi as [Hoi | Hoi]; [now left | right; intros ->; apply Hoi; now left].
           ++ intros i' [<- | Hi']; [|now apply T']. exists t, n. split; [exact Eo|]. apply K'. cbn [pl s1].
              destruct (get_buffer_spec _ _ _ _ _ _ (inv_ok _ _ _ _ _ _ _ I) G) as (_ & _ & X & _). congruence.
           ++ intros ch. rewrite M'. reflexivity.
    + specialize (IH ex R s m N').
      destruct IH as (I' & O' & K' & F' & T' & M').
      * intros i' Hi'. apply Z0. now right.
      * intros c Hc [X1 X2]. apply (D c Hc). split; [exact X1 | now right].
      * exact V.
      * exact I.
      * assert (Ea : (match s.(outb) o i with
             | BZero | BIn _ | BOut _ | BTmp _ _ => assign_outlets g o outs ex s
             end) = assign_outlets g o outs ex s) by (destruct (outb s o i); reflexivity).
        cbn [filter]. change (is_sig (i, None)) with false. cbn [leaving_outs flat_map]. change (is_sig (i, None)) with false. cbv iota. cbn [app].
        split; [exact I' | split; [exact O' | split; [exact K' | split; [|split; [exact T' | exact M']]]]].
        intros o' i' Hoi. apply F'. destruct Hoi as [Hoi | Hoi]; [now left | right; intros X; apply Hoi; now right].
Qed.
End Loops.

(** ** All outlets of an object get buffers of their own, connected or not. *)
Lemma outlets_distinct g o outs : forall ex T s,
  NoDup (map fst outs) -> pools_ok s.(pl) ->
  (forall i, In i (map fst outs) -> s.(outb) o i = BZero) ->
  (forall b, In b ex -> refs s.(pl) b <> None) ->
  (forall b, In b T -> exists k, refs s.(pl) b = Some k /\ (In b ex \/ 0 < k)) ->
  let s' := assign_outlets g o outs ex s in
  NoDup (map (s'.(outb) o) (map fst (filter is_sig outs))) /\
  (forall i, In i (map fst (filter is_sig outs)) -> ~ In (s'.(outb) o i) T) /\
  (forall o' i', (o' <> o \/ ~ In i' (map fst outs)) -> s'.(outb) o' i' = s.(outb) o' i').
Proof.
  induction outs as [| (i, ty) outs IH]; intros ex T s N OK Z0 HX HT; cbn [assign_outlets].
  - cbn. split; [constructor | split; [intros i [] | reflexivity]].
  - cbn [map fst] in *. inversion N as [| ? ? Ni N']; subst. destruct ty as [t|].
    + rewrite (Z0 i (or_introl eq_refl)).
      destruct (get_buffer s.(pl) t (Z.of_nat (length (at_outlet g o i))) ex) as [n P] eqn:G.
      destruct (get_buffer_spec _ _ _ _ _ _ OK G) as (OK' & Fr & F & O & _).
      set (s1 := {| inb := inb s; outb := upd2 (outb s) o i (BTmp t n); pl := P |}).
      set (ex1 := if Nat.eqb (length (at_outlet g o i)) 0 then BTmp t n :: ex else ex).
      assert (NT : ~ In (BTmp t n) T).
      { intros H. destruct (HT _ H) as (k & R & [X | X]); destruct Fr as [[R0 Nx] | R0]; rewrite R0 in R; try discriminate; [tauto | injection R as <-; lia]. }
      assert (Fo : forall o' i', (o' <> o \/ i' <> i) -> outb s1 o' i' = outb s o' i').
      { intros o' i' Hoi. cbn [outb s1]. unfold upd2. destruct (Nat.eqb_spec o' o) as [-> | ]; [|reflexivity].
        destruct (Nat.eqb_spec i' i) as [-> | ]; [|reflexivity]. destruct Hoi; congruence. }
      assert (Ix : incl ex ex1) by (unfold ex1; destruct (Nat.eqb _ _); [intros x Hx; now right | apply incl_refl]).
      destruct (IH ex1 (BTmp t n :: T) s1 N' OK') as (D1 & D2 & D3).
      * intros i' Hi'. rewrite Fo; [apply Z0; now right|]. right. intros ->. contradiction.
      * intros b Hb. cbn [pl s1]. destruct (buf_eqb_spec b (BTmp t n)) as [-> | Ne]; [congruence|]. rewrite O by exact Ne. apply HX.
        unfold ex1 in Hb. destruct (Nat.eqb _ _); [destruct Hb as [<- | Hb]; [congruence | exact Hb] | exact Hb].
      * intros b [<- | Hb]; cbn [pl s1].
        -- exists (Z.of_nat (length (at_outlet g o i))). split; [exact F|]. unfold ex1.
           destruct (Nat.eqb_spec (length (at_outlet g o i)) 0); [left; now left | right; lia].
        -- destruct (HT _ Hb) as (k & R & X). exists k. rewrite O by (intros E; rewrite E in Hb; contradiction).
           split; [exact R|]. destruct X; [left; now apply Ix | now right].
      * set (s' := assign_outlets g o outs ex1 s1) in *.
        assert (Eo : outb s' o i = BTmp t n).
        { rewrite D3 by now right. cbn [outb s1]. unfold upd2. now rewrite !Nat.eqb_refl. }
        cbn [filter]. change (is_sig (i, Some t)) with true. cbn [map fst]. rewrite Eo. split; [|split].
        -- constructor; [|exact D1]. intros X. apply in_map_iff in X as (j & Ej & Hj). apply (D2 j Hj). rewrite Ej. now left.
        -- intros j [<- | Hj]; [now rewrite Eo|]. intros X. apply (D2 j Hj). now right.
        -- intros o' i' Hoi. rewrite D3 by (destruct Hoi as [Hoi | Hoi]; [now left | right; intros X; apply Hoi; now right]).
           apply Fo. destruct Hoi as [Hoi | Hoi]; [now left | right; intros ->; apply Hoi; now left].
    + destruct (IH ex T s N' OK) as (D1 & D2 & D3); auto; [intros j Hj; apply Z0; now right|].
      cbn [filter]. change (is_sig (i, None)) with false. cbv iota.
      split; [exact D1 | split; [exact D2|]]. intros o' i' Hoi. apply D3. destruct Hoi as [Hoi | Hoi]; [now left | right; intros X; apply Hoi; now right].
Qed.
