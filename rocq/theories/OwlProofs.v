(** Lemmas about the OWL generator. *)
From Verif Require Export OwlSpec ArgsProofs.
From Coq Require Import String List QArith Lqa Lia Bool.
Import ListNotations.
Local Open Scope list_scope.
Open Scope Z_scope.

Lemma after_iff x : forall s r, after x s = Some r <-> s = x ++ r.
Proof.
  induction x as [|a x IH]; intros s r; cbn [after app].
  - split; [intros [= ->]; reflexivity|intros ->; reflexivity].
  - destruct s as [|b s]; [split; discriminate|]. destruct (Z.eqb_spec a b) as [-> | N].
    + rewrite IH. split; [intros ->; reflexivity|intros [= ->]; reflexivity].
    + split; [discriminate|]. intros E. injection E as E _. exfalso. apply N. symmetry. exact E.
Qed.
Lemma is_button_iff k : is_button k = true <-> button k.
Proof.
  unfold is_button, button. rewrite existsb_exists. split.
  - intros (x & Hx & E). apply text_eqb_eq in E. subst. exact Hx.
  - intros H. exists k. split; [exact H|apply text_eqb_refl].
Qed.
Definition row_of (send : bool) (p : port) (k : text) (lo hi : Q) (d : option Q) : row :=
  mkRow k (if send then p_name p ++ T ">" else p_name p) send (hv_string_to_hash (p_name p)) lo hi d (is_button k).
Lemma wired_row send p k lo hi d : wired send p k lo hi d <-> port_row send p = [row_of send p k lo hi d].
Proof.
  unfold wired, port_row, row_of. destruct p as [name rg]. cbn [p_name p_range].
  destruct (negb send && match after (T "__") name with Some _ => true | None => false end) eqn:G.
  - split; [|discriminate]. intros [N _]. exfalso. destruct send; [discriminate|]. cbn [negb andb] in G.
    destruct (after (T "__") name) as [s|] eqn:E; [|discriminate]. apply after_iff in E. exact (N eq_refl s E).
  - assert (N : send = false -> forall s, name <> T "__" ++ s).
    { intros -> s E. apply after_iff in E. cbn [negb andb] in G. rewrite E in G. discriminate. }
    assert (Ch : (name = channel ++ k /\ lo = 0%Q /\ hi = 1%Q /\ d = None) <->
      match after channel name with Some k => [mkRow k (if send then name ++ T ">" else name) send (hv_string_to_hash name) 0 1 None (is_button k)] | None => [] end
      = [mkRow k (if send then name ++ T ">" else name) send (hv_string_to_hash name) lo hi d (is_button k)]).
    { split.
      - intros (E & -> & -> & ->). apply after_iff in E. rewrite E. reflexivity.
      - destruct (after channel name) as [k'|] eqn:E; [|discriminate]. intros H. injection H as -> <- <- <-. apply after_iff in E. repeat split; assumption. }
    destruct rg as [[raw a b c]|].
    + destruct raw as [[|x t]|].
      * split.
        -- intros [_ [(r & E & E2 & Nk & _) | (_ & _ & H)]].
           ++ injection E as <-. cbn [r_raw] in E2. injection E2 as <-. contradiction.
           ++ destruct send; apply Ch; exact H.
        -- intros H. split; [exact N|]. right. split; [intros r k' E E2; injection E as <-; cbn [r_raw] in E2; injection E2 as <-; reflexivity|].
           split; [discriminate|]. apply Ch. destruct send; exact H.
      * split.
        -- intros [_ [(r & E & E2 & Nk & -> & -> & ->) | (X & _)]].
           ++ injection E as <-. cbn [r_raw r_min r_max r_def] in *. injection E2 as <-. reflexivity.
           ++ specialize (X _ _ eq_refl eq_refl). discriminate.
        -- intros H. injection H as <- <- <- <-. split; [exact N|]. left. eexists. split; [reflexivity|]. split; [reflexivity|]. split; [discriminate|]. repeat split.
      * split.
        -- intros [_ [(r & E & E2 & Nk & _) | (_ & _ & H)]].
           ++ injection E as <-. discriminate.
           ++ destruct send; apply Ch; exact H.
        -- intros H. split; [exact N|]. right. split; [intros r k' E E2; injection E as <-; discriminate|].
           split; [discriminate|]. apply Ch. destruct send; exact H.
    + destruct send.
      * split; [|discriminate]. intros [_ [(r & E & _) | (_ & X & _)]]; [discriminate|]. exfalso. exact (X eq_refl eq_refl).
      * split.
        -- intros [_ [(r & E & _) | (_ & _ & H)]]; [discriminate|]. apply Ch. exact H.
        -- intros H. split; [exact N|]. right. split; [intros r k' E; discriminate|]. split; [discriminate|]. apply Ch. exact H.
Qed.
Lemma port_row_cases send p : (exists k lo hi d, wired send p k lo hi d /\ port_row send p = [row_of send p k lo hi d]) \/ (port_row send p = [] /\ forall k lo hi d, ~ wired send p k lo hi d).
Proof.
  destruct (port_row send p) as [|w l] eqn:E.
  - right. split; [reflexivity|]. intros k lo hi d H. apply wired_row in H. congruence.
  - left. assert (X : exists k lo hi d, w :: l = [row_of send p k lo hi d]).
    { rewrite <- E. unfold port_row, row_of in *. destruct (negb send && _); [discriminate|]. destruct p as [name rg]. cbn [p_name p_range] in *.
      destruct rg as [[[[|x t]|] a b c]|].
      - destruct (after channel name) eqn:A; [|destruct send; discriminate]. do 4 eexists. destruct send; reflexivity.
      - do 4 eexists. reflexivity.
      - destruct (after channel name) eqn:A; [|destruct send; discriminate]. do 4 eexists. destruct send; reflexivity.
      - destruct send; [discriminate|]. destruct (after channel name) eqn:A; [|discriminate]. do 4 eexists. reflexivity. }
    destruct X as (k & lo & hi & d & X). exists k, lo, hi, d. split; [apply wired_row; rewrite E; exact X|exact X].
Qed.
Lemma in_jdata rs ss w : In w (make_jdata rs ss) <-> exists p k lo hi d, In p (if w_send w then ss else rs) /\ wired (w_send w) p k lo hi d /\ w = row_of (w_send w) p k lo hi d.
Proof.
  unfold make_jdata. rewrite in_app_iff, !in_flat_map. split.
  - intros [(p & Hp & Hw) | (p & Hp & Hw)].
    + destruct (port_row_cases false p) as [(k & lo & hi & d & W & E) | [E _]]; rewrite E in Hw; [|destruct Hw]. destruct Hw as [<- | []].
      exists p, k, lo, hi, d. split; [exact Hp|]. split; [exact W|reflexivity].
    + destruct (port_row_cases true p) as [(k & lo & hi & d & W & E) | [E _]]; rewrite E in Hw; [|destruct Hw]. destruct Hw as [<- | []].
      exists p, k, lo, hi, d. split; [exact Hp|]. split; [exact W|reflexivity].
  - intros (p & k & lo & hi & d & Hp & W & E). apply wired_row in W. destruct (w_send w).
    + right. exists p. split; [exact Hp|]. rewrite W. left. symmetry. exact E.
    + left. exists p. split; [exact Hp|]. rewrite W. left. symmetry. exact E.
Qed.
Lemma scaled_some w : (exists v, scaled_default w = Some v) <-> (exists v, w_def w = Some v) /\ ~ (w_max w == w_min w)%Q.
Proof.
  unfold scaled_default. destruct (w_def w) as [d|].
  - destruct (Qeq_bool (w_max w) (w_min w)) eqn:E.
    + apply Qeq_bool_iff in E. split; [intros [v C]; discriminate|intros [_ C]; contradiction].
    + apply Qeq_bool_neq in E. split; [intros _; split; [exists d; reflexivity|exact E]|intros _; eexists; reflexivity].
  - split; [intros [v C]; discriminate|intros [[v C] _]; discriminate].
Qed.
Lemma renders_iff j : renders j = true <-> forall w, In w j -> (exists v, w_def w = Some v) /\ ~ (w_max w == w_min w)%Q.
Proof.
  unfold renders. rewrite forallb_forall. split; intros H w Hw.
  - apply scaled_some. specialize (H w Hw). cbn beta in H. destruct (scaled_default w) as [v|]; [exists v; reflexivity|discriminate].
  - apply H in Hw. apply scaled_some in Hw. destruct Hw as [v ->]. reflexivity.
Qed.
(** ** Different keys *)
Lemma find_key (f : row -> bool) l w : NoDup (map w_key l) -> In w l -> f w = true -> (forall x, f x = true -> w_key x = w_key w) -> find f l = Some w.
Proof.
  induction l as [|a l IH]; cbn [map find]; intros H; [intros []|]. apply NoDup_cons_iff in H. destruct H as [Ha H]. intros [-> | Hw] Fw K.
  - rewrite Fw. reflexivity.
  - destruct (f a) eqn:E; [|exact (IH H Hw Fw K)]. exfalso. apply Ha. rewrite (K a E). apply in_map. exact Hw.
Qed.
Lemma rev_keys j : NoDup (map w_key j) -> NoDup (map w_key (rev j)).
Proof. intros H. rewrite map_rev. apply NoDup_rev. exact H. Qed.
Lemma macro_self j w : NoDup (map w_key j) -> In w j -> macro j (w_key w) = Some w.
Proof.
  intros H Hw. unfold macro. apply find_key; [apply rev_keys; exact H|apply -> in_rev; exact Hw|apply text_eqb_refl|]. intros x E. apply text_eqb_eq in E. exact E.
Qed.
Lemma hash_self j w : NoDup (map w_key j) -> In w j -> hash_macro j (w_send w) (w_key w) = Some (w_hash w).
Proof.
  intros H Hw. unfold hash_macro. rewrite (find_key _ (rev j) w); [reflexivity|apply rev_keys; exact H|apply -> in_rev; exact Hw| |].
  - rewrite text_eqb_refl, eqb_reflx. reflexivity.
  - intros x E. apply andb_true_iff in E. destruct E as [E _]. apply text_eqb_eq in E. exact E.
Qed.
Lemma lines_eq {A} j which (f : text -> row -> Z -> A) : NoDup (map w_key j) -> lines j which f = map (fun w => f (w_key w) w (w_hash w)) (filter which j).
Proof.
  intros H. unfold lines.
  assert (G : forall l, incl l j -> flat_map (fun w => match macro j (w_key w), hash_macro j (w_send w) (w_key w) with Some m, Some h => [f (w_key w) m h] | _, _ => [] end) l
    = map (fun w => f (w_key w) w (w_hash w)) l).
  { induction l as [|w l IH]; intros I; [reflexivity|]. cbn [flat_map map]. pose proof (I w (or_introl eq_refl)) as Hw.
    rewrite (macro_self j w H Hw), (hash_self j w H Hw), IH; [reflexivity|]. intros x Hx. apply I. right. exact Hx. }
  apply G. intros w Hw. apply filter_In in Hw. exact (proj1 Hw).
Qed.
Lemma filter_none {A} (P : A -> bool) l : (forall x, In x l -> P x = false) -> filter P l = [].
Proof.
  induction l as [|x l IH]; intros H; cbn [filter]; [reflexivity|]. rewrite (H x (or_introl eq_refl)). apply IH. intros y Hy. apply H. right. exact Hy.
Qed.
Lemma block rs ss value : keys_differ rs ss -> block_messages value rs (process_audio (make_jdata rs ss) value).
Proof.
  intros H. unfold process_audio. rewrite (lines_eq _ _ _ H). clear H. unfold make_jdata. rewrite filter_app.
  rewrite (filter_none _ (flat_map (port_row true) ss)).
  2: { intros w Hw. apply in_flat_map in Hw. destruct Hw as (p & _ & Hw).
       destruct (port_row_cases true p) as [(k & lo & hi & d & _ & E) | [E _]]; rewrite E in Hw; [|destruct Hw]. destruct Hw as [<- | []]. reflexivity. }
  rewrite app_nil_r. induction rs as [|p rs IH]; cbn [flat_map]; [constructor|]. rewrite filter_app, map_app.
  destruct (port_row_cases false p) as [(k & lo & hi & d & W & E) | [E N]]; rewrite E.
  - cbn [filter row_of w_send w_button negb andb]. destruct (is_button k) eqn:B; cbn [negb map app].
    + apply bm_skip; [|exact IH]. intros k2 lo2 hi2 d2 W2. apply wired_row in W2. rewrite E in W2. injection W2 as <- _ _ _. apply is_button_iff. exact B.
    + cbn [w_key w_max w_min w_hash]. apply (bm_send value p rs _ k lo hi d W); [|exact IH]. intros C. apply is_button_iff in C. congruence.
  - cbn [filter map app]. apply bm_skip; [|exact IH]. intros k lo hi d W. exfalso. exact (N k lo hi d W).
Qed.
Lemma sent rs ss h x : keys_differ rs ss ->
  send_callback (make_jdata rs ss) h x = match find (fun w => w_hash w =? h) (filter w_send (make_jdata rs ss)) with
    | Some w => let v := ((x - w_min w) / (w_max w - w_min w))%Q in [if w_button w then SetButton (w_key w) (negb (Qle_bool v (1#2))) else SetParameter (w_key w) v]
    | None => [] end.
Proof.
  intros H. unfold send_callback. set (j := make_jdata rs ss) in *.
  assert (G : forall l, incl l j -> (forall w, In w l -> w_send w = true) ->
    match find (fun c => fst c =? h) (flat_map (fun w => match macro j (w_key w), hash_macro j true (w_key w) with
      | Some m, Some h => let v := ((x - w_min m) / (w_max m - w_min m))%Q in [(h, if w_button w then SetButton (w_key w) (negb (Qle_bool v (1#2))) else SetParameter (w_key w) v)]
      | _, _ => [] end) l) with Some c => [snd c] | None => [] end
    = match find (fun w => w_hash w =? h) l with
      | Some w => let v := ((x - w_min w) / (w_max w - w_min w))%Q in [if w_button w then SetButton (w_key w) (negb (Qle_bool v (1#2))) else SetParameter (w_key w) v]
      | None => [] end).
  { induction l as [|w l IH]; intros I S; [reflexivity|]. cbn [flat_map find]. pose proof (I w (or_introl eq_refl)) as Hw.
    rewrite (macro_self j w H Hw). pose proof (hash_self j w H Hw) as E. rewrite (S w (or_introl eq_refl)) in E. rewrite E. cbv zeta. cbn [app find fst].
    destruct (w_hash w =? h); [reflexivity|]. apply IH; [intros y Hy; apply I; right; exact Hy|intros y Hy; apply S; right; exact Hy]. }
  apply G.
  - intros w Hw. apply filter_In in Hw. exact (proj1 Hw).
  - intros w Hw. apply filter_In in Hw. exact (proj2 Hw).
Qed.
Lemma find_hash l w : NoDup (map w_hash l) -> In w l -> find (fun x => w_hash x =? w_hash w) l = Some w.
Proof.
  induction l as [|a l IH]; cbn [map find]; intros H; [intros []|]. apply NoDup_cons_iff in H. destruct H as [Ha H]. intros [-> | Hw].
  - rewrite Z.eqb_refl. reflexivity.
  - destruct (Z.eqb_spec (w_hash a) (w_hash w)) as [E | E]; [|exact (IH H Hw)]. exfalso. apply Ha. rewrite E. apply in_map. exact Hw.
Qed.
Lemma send_cases_eq j : NoDup (map w_key j) -> send_cases j = map w_hash (filter w_send j).
Proof. intros H. unfold send_cases. rewrite (lines_eq _ _ _ H). reflexivity. Qed.
