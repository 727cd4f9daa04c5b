From Coq Require Import ZifyBool.
From Verif Require Import ArgsModel ArgsSpec.

Lemma starts_prefix p : forall s, starts p s = true <-> prefix p s.
Proof.
  induction p as [|x p IH]; intros s; cbn [starts].
  - split; [intros _; exists s; reflexivity|reflexivity].
  - destruct s as [|y s]; [split; [discriminate|intros (l & H); discriminate]|].
    rewrite andb_true_iff, IH, Z.eqb_eq. split.
    + intros (-> & l & ->). exists l. reflexivity.
    + intros (l & H). injection H as -> ->. split; [reflexivity|]. exists l. reflexivity.
Qed.
Lemma text_eqb_eq a : forall b, text_eqb a b = true <-> a = b.
Proof.
  induction a as [|x a IH]; intros [|y b]; cbn [text_eqb]; split; try discriminate; try reflexivity.
  - rewrite andb_true_iff, IH, Z.eqb_eq. intros (-> & ->). reflexivity.
  - intros [= -> ->]. rewrite andb_true_iff, Z.eqb_refl. split; [reflexivity|]. apply IH. reflexivity.
Qed.
Lemma text_eqb_spec a b : reflect (a = b) (text_eqb a b).
Proof. destruct (text_eqb a b) eqn:E; constructor; [apply text_eqb_eq; exact E|]. intros H. apply text_eqb_eq in H. congruence. Qed.
Lemma text_eqb_refl a : text_eqb a a = true.
Proof. apply text_eqb_eq. reflexivity. Qed.

Lemma contains_spec p s : contains p s = true <-> exists a b, s = a ++ p ++ b.
Proof.
  induction s as [|c s IH]; cbn [contains]; rewrite orb_true_iff, starts_prefix.
  - split.
    + intros [(l & H)|H]; [|discriminate]. exists [], l. exact H.
    + intros (a & b & H). left. destruct a; [|discriminate]. exists b. exact H.
  - rewrite IH. split.
    + intros [(l & H)|(a & b & ->)]; [exists [], l; exact H|exists (c :: a), b; reflexivity].
    + intros ([|x a] & b & H); [left; exists b; exact H|right]. injection H as -> ->. eauto.
Qed.

Lemma prefix_app_or {A} (k r rest : list A) : prefix k (r ++ rest) -> prefix k r \/ prefix r k.
Proof.
  revert r. induction k as [|x k IH]; intros r (l & H).
  - left. exists r. reflexivity.
  - destruct r as [|y r]; [right; exists (x :: k); reflexivity|]. injection H as -> H.
    destruct (IH r) as [(a & ->)|(a & ->)]; [exists l; exact H| |]; [left|right]; exists a; reflexivity.
Qed.
Lemma starts_app mk k s : starts (mk ++ k) (mk ++ s) = starts k s.
Proof. induction mk as [|x mk IH]; [reflexivity|]. cbn [app starts]. rewrite Z.eqb_refl. exact IH. Qed.

Lemma skip_app old new a b : replace_from old new (a ++ b) (length a) = replace_from old new b 0.
Proof. induction a as [|x a IH]; cbn [app length replace_from]; [destruct b; reflexivity|]. exact IH. Qed.

Definition mark (mk : text) : Prop := mk = [DOLLAR] \/ mk = [BACKSLASH; DOLLAR].

Lemma render_head ts : plain_lits ts -> match render [BACKSLASH; DOLLAR] ts with c :: _ => c <> DOLLAR | [] => True end.
Proof.
  induction ts as [|[s|k] ts IH]; intros H; cbn [render flat_map written app]; [exact I| |unfold BACKSLASH, DOLLAR; lia].
  destruct s as [|c s].
  - apply IH. intros x Hx. apply H. right. exact Hx.
  - cbn [app]. intros ->. apply (H (DOLLAR :: s) (or_introl eq_refl)). left. reflexivity.
Qed.

(** Characters of a plain text are copied. *)
Lemma lit_step mk k v s ts : mark mk -> plain s -> plain_lits ts ->
  replace_from (mk ++ k) v (s ++ render mk ts) 0 = s ++ replace_from (mk ++ k) v (render mk ts) 0.
Proof.
  intros Hmk Hs Hts. induction s as [|c s IH]; [reflexivity|]. cbn [app replace_from].
  assert (starts (mk ++ k) (c :: s ++ render mk ts) = false) as ->.
  { destruct (starts (mk ++ k) (c :: s ++ render mk ts)) eqn:E; [|reflexivity]. exfalso. destruct Hmk as [-> | ->]; cbn [app starts] in E.
    - apply Hs. left. lia.
    - destruct s as [|d s]; cbn [app] in E.
      + pose proof (render_head ts Hts) as Hh. destruct (render [BACKSLASH; DOLLAR] ts); [rewrite andb_false_r in E; discriminate|]. lia.
      + apply Hs. right. left. lia. }
  f_equal. apply IH. intros C. apply Hs. right. exact C.
Qed.
Lemma ref_other mk k v r ts : mark mk -> plain r -> plain_lits ts -> ~ prefix k r -> ~ prefix r k ->
  replace_from (mk ++ k) v (mk ++ r ++ render mk ts) 0 = mk ++ r ++ replace_from (mk ++ k) v (render mk ts) 0.
Proof.
  intros Hmk Hr Hts N1 N2.
  assert (E : starts (mk ++ k) (mk ++ r ++ render mk ts) = false).
  { rewrite starts_app. destruct (starts k (r ++ render mk ts)) eqn:E; [|reflexivity]. apply starts_prefix in E.
    apply prefix_app_or in E as [E|E]; contradiction. }
  destruct Hmk as [-> | ->]; cbn [app] in *.
  - cbn [replace_from]. rewrite E. f_equal. apply (lit_step [DOLLAR] k v r ts); [left; reflexivity|exact Hr|exact Hts].
  - cbn [replace_from]. rewrite E. f_equal. cbn [replace_from starts]. change (BACKSLASH =? DOLLAR) with false. cbn [andb]. f_equal.
    apply (lit_step [BACKSLASH; DOLLAR] k v r ts); [right; reflexivity|exact Hr|exact Hts].
Qed.
Lemma ref_same mk k v rest : mark mk -> replace_from (mk ++ k) v (mk ++ k ++ rest) 0 = v ++ replace_from (mk ++ k) v rest 0.
Proof.
  intros Hmk. assert (E : starts (mk ++ k) (mk ++ k ++ rest) = true) by (apply starts_prefix; exists rest; rewrite app_assoc; reflexivity).
  rewrite app_assoc in E |- *. destruct (mk ++ k) as [|c old] eqn:Eo; [destruct Hmk as [-> | ->]; discriminate|].
  cbn [app replace_from]. cbn [app] in E. rewrite E. f_equal.
  replace (length (c :: old) - 1)%nat with (length old) by (cbn [length]; lia). apply skip_app.
Qed.

Definition subst1 (k v : text) (t : token) : token :=
  match t with Ref r => if text_eqb r k then Lit v else Ref r | Lit s => Lit s end.
Lemma replace_render mk k v ts : mark mk -> plain_lits ts ->
  (forall r, In r (refs ts) -> plain r /\ (r = k \/ (~ prefix k r /\ ~ prefix r k))) ->
  replace (render mk ts) (mk ++ k) v = render mk (map (subst1 k v) ts).
Proof.
  intros Hmk. unfold replace. induction ts as [|t ts IH]; intros HL HR; [reflexivity|].
  assert (HL' : plain_lits ts) by (intros s Hs; apply HL; right; exact Hs).
  destruct t as [s|r]; cbn [render flat_map written map subst1];
    try change (flat_map (written mk) ts) with (render mk ts); try change (flat_map (written mk) (map (subst1 k v) ts)) with (render mk (map (subst1 k v) ts)).
  - rewrite lit_step; [|exact Hmk|apply HL; left; reflexivity|exact HL']. f_equal. apply IH; [exact HL'|exact HR].
  - assert (HR' : forall r, In r (refs ts) -> plain r /\ (r = k \/ ~ prefix k r /\ ~ prefix r k)) by (intros x Hx; apply HR; right; exact Hx).
    destruct (HR r (or_introl eq_refl)) as (Hp & Hor). rewrite <- app_assoc.
    destruct (text_eqb_spec r k) as [-> | N]; cbn [written].
    + rewrite ref_same by exact Hmk. f_equal. apply IH; assumption.
    + destruct Hor as [->|(N1 & N2)]; [congruence|]. rewrite ref_other by assumption. rewrite <- app_assoc. do 2 f_equal. apply IH; assumption.
Qed.

Lemma refs_subst k v ts : forall r, In r (refs (map (subst1 k v) ts)) <-> In r (refs ts) /\ r <> k.
Proof.
  induction ts as [|[s|x] ts IH]; intros r; cbn [map subst1 refs flat_map app In]; [tauto|apply IH|].
  destruct (text_eqb_spec x k) as [-> | N]; cbn [app In].
  - change (In r (refs (map (subst1 k v) ts)) <-> (k = r \/ In r (refs ts)) /\ r <> k). rewrite IH. split; [tauto|]. intros ([->|H] & H2); [congruence|tauto].
  - change (x = r \/ In r (refs (map (subst1 k v) ts)) <-> (x = r \/ In r (refs ts)) /\ r <> k). rewrite IH. split; [|tauto].
    intros [->|H]; [split; [left; reflexivity|exact N]|tauto].
Qed.
Lemma lits_subst k v ts : plain v -> plain_lits ts -> plain_lits (map (subst1 k v) ts).
Proof.
  intros Hv H s Hs. apply in_map_iff in Hs as ([x|x] & E & Hx); cbn [subst1] in E.
  - injection E as ->. apply H. exact Hx.
  - destruct (text_eqb x k); [|discriminate]. injection E as <-. exact Hv.
Qed.
Lemma substituted_subst f k v ts : f k = Some v -> substituted f (map (subst1 k v) ts) = substituted f ts.
Proof.
  intros Hf. induction ts as [|[s|x] ts IH]; cbn [map subst1 substituted]; [reflexivity|rewrite IH; reflexivity|].
  destruct (text_eqb_spec x k) as [-> | N]; cbn [meaning]; rewrite IH; [rewrite Hf|]; reflexivity.
Qed.
Lemma substituted_ext f g ts : (forall r, In r (refs ts) -> f r = g r) -> substituted f ts = substituted g ts.
Proof.
  induction ts as [|[s|x] ts IH]; intros H; cbn [substituted meaning]; [reflexivity|rewrite IH by exact H; reflexivity|].
  rewrite (H x) by (left; reflexivity). rewrite IH; [reflexivity|]. intros r Hr. apply H. right. exact Hr.
Qed.
Lemma substituted_norefs f mk ts : refs ts = [] -> substituted f ts = Some (render mk ts).
Proof.
  induction ts as [|[s|x] ts IH]; intros H; cbn [substituted meaning render flat_map written]; [reflexivity| |discriminate].
  rewrite IH by exact H. reflexivity.
Qed.
Lemma subst1_id k v ts : ~ In k (refs ts) -> map (subst1 k v) ts = ts.
Proof.
  induction ts as [|[s|x] ts IH]; intros H; cbn [map subst1]; [reflexivity|f_equal; apply IH; exact H|].
  destruct (text_eqb_spec x k) as [-> | N]; [exfalso; apply H; left; reflexivity|]. f_equal. apply IH. intros C. apply H. right. exact C.
Qed.

Lemma ref_contains mk ts k : In k (refs ts) -> contains (mk ++ k) (render mk ts) = true.
Proof.
  intros H. apply contains_spec. induction ts as [|[s|x] ts IH]; cbn [refs flat_map app In] in H; [destruct H| |].
  - destruct (IH H) as (a & b & E). exists (s ++ a), b. cbn [render flat_map written]. unfold render in E. rewrite E, ?app_assoc. reflexivity.
  - destruct H as [->|H].
    + exists [], (render mk ts). cbn [render flat_map written app]. reflexivity.
    + destruct (IH H) as (a & b & E). exists ((mk ++ x) ++ a), b. cbn [render flat_map written]. unfold render in E. rewrite E, ?app_assoc. reflexivity.
Qed.

(** A text that is exactly one reference. *)
Lemma render_one ts k f v : plain_lits ts -> (forall r, In r (refs ts) -> prefix r k -> r = k) -> f k = Some v ->
  render [DOLLAR] ts = DOLLAR :: k -> substituted f ts = Some v /\ (forall r, In r (refs ts) -> r = k).
Proof.
  intros HL HP Hf. induction ts as [|[s|x] ts IH]; cbn [render flat_map written]; intros H.
  - discriminate.
  - destruct s as [|c s].
    + cbn [app] in H. destruct IH as (A & B); [intros y Hy; apply HL; right; exact Hy|exact HP|exact H|].
      split; [cbn [substituted meaning]; rewrite A; reflexivity|exact B].
    + cbn [app] in H. injection H as -> H. exfalso. apply (HL (DOLLAR :: s) (or_introl eq_refl)). left. reflexivity.
  - cbn [app] in H. injection H as H. assert (x = k) by (apply HP; [left; reflexivity|exists (render [DOLLAR] ts); symmetry; exact H]). subst x.
    assert (Hnil : render [DOLLAR] ts = []). { rewrite <- (app_nil_r k) in H at 2. apply app_inv_head in H. exact H. }
    assert (Hr : refs ts = [] /\ substituted f ts = Some []).
    { clear -Hnil. induction ts as [|[s|x] ts IH]; [split; reflexivity| |discriminate].
      cbn [render flat_map written] in Hnil. apply app_eq_nil in Hnil as (-> & Hn). destruct (IH Hn) as (A & B).
      split; [exact A|]. cbn [substituted meaning]. rewrite B. reflexivity. }
    destruct Hr as (Hr & Hs). split; [cbn [substituted meaning]; rewrite Hf, Hs, app_nil_r; reflexivity|].
    intros r [<- | C]; [reflexivity|]. change (In r (refs ts)) in C. rewrite Hr in C. destruct C.
Qed.

Lemma prefix_free_cons k l : prefix_free (k :: l) -> forall r, In r l -> r = k \/ (~ prefix k r /\ ~ prefix r k).
Proof.
  intros H r Hr. destruct (text_eqb_spec r k) as [-> | N]; [left; reflexivity|right]. split; intros C.
  - apply N. symmetry. apply H; [left; reflexivity|right; exact Hr|exact C].
  - apply N. apply H; [right; exact Hr|left; reflexivity|exact C].
Qed.

Lemma resolve_value_ok gargs : forall ts, NoDup (map fst gargs) -> prefix_free (map fst gargs) ->
  (forall k v, In (k, v) gargs -> plain k /\ plain (py_str v)) -> plain_lits ts ->
  (forall r, In r (refs ts) -> In r (map fst gargs)) ->
  substituted (arg_text gargs) ts = Some (py_str (resolve_value gargs (render [DOLLAR] ts))).
Proof.
  induction gargs as [|[k v] gargs IH]; intros ts HN HF HP HL HR; cbn [resolve_value].
  - rewrite (substituted_norefs _ [DOLLAR]); [reflexivity|]. destruct (refs ts) as [|r l]; [reflexivity|]. destruct (HR r (or_introl eq_refl)).
  - cbn [map fst] in *. inversion HN as [|? ? Hk HN']; subst.
    assert (HP' : forall k v, In (k, v) gargs -> plain k /\ plain (py_str v)) by (intros a b Hab; apply HP; right; exact Hab).
    assert (HF' : prefix_free (map fst gargs)) by (intros a b Ha Hb; apply HF; right; assumption).
    destruct (HP k v (or_introl eq_refl)) as (Pk & Pv).
    assert (Harg : arg_text ((k, v) :: gargs) k = Some (py_str v)) by (unfold arg_text; cbn [arg_of]; rewrite text_eqb_refl; reflexivity).
    assert (Hcmp : forall r, In r (refs ts) -> r = k \/ (~ prefix k r /\ ~ prefix r k)).
    { intros r Hr. destruct (HR r Hr) as [<- | C]; [left; reflexivity|]. exact (prefix_free_cons k _ HF r C). }
    assert (Hrplain : forall r, In r (refs ts) -> plain r).
    { intros r Hr. destruct (HR r Hr) as [<- | C]; [exact Pk|]. apply in_map_iff in C as ([a b] & <- & C). apply (HP' a b C). }
    assert (Hnext : forall ts', (forall r, In r (refs ts') -> In r (map fst gargs)) -> substituted (arg_text ((k, v) :: gargs)) ts' = substituted (arg_text gargs) ts').
    { intros ts' H'. apply substituted_ext. intros r Hr. unfold arg_text. cbn [arg_of].
      destruct (text_eqb_spec r k) as [-> | N]; [exfalso; apply Hk; apply H'; exact Hr|reflexivity]. }
    destruct (contains (DOLLAR :: k) (render [DOLLAR] ts)) eqn:Ec.
    + destruct (text_eqb_spec (render [DOLLAR] ts) (DOLLAR :: k)) as [E | N].
      * apply render_one with (k := k); [exact HL| |exact Harg|exact E].
        intros r Hr Hpre. destruct (Hcmp r Hr) as [->|(_ & C)]; [reflexivity|contradiction].
      * change (DOLLAR :: k) with ([DOLLAR] ++ k). rewrite replace_render; [|left; reflexivity|exact HL|intros r Hr; split; [auto|auto]].
        assert (HR2 : forall r, In r (refs (map (subst1 k (py_str v)) ts)) -> In r (map fst gargs)).
        { intros r Hr. apply refs_subst in Hr as (Hr & Hne). destruct (HR r Hr) as [<- | C]; [congruence|exact C]. }
        rewrite <- (IH _ HN' HF' HP'); [|apply lits_subst; assumption|exact HR2].
        rewrite <- Hnext by exact HR2. rewrite substituted_subst by exact Harg. reflexivity.
    + assert (Hnk : ~ In k (refs ts)) by (intros C; apply (ref_contains [DOLLAR]) in C; cbn [app] in C; congruence).
      assert (HR2 : forall r, In r (refs ts) -> In r (map fst gargs)).
      { intros r Hr. destruct (HR r Hr) as [<- | C]; [contradiction|exact C]. }
      rewrite Hnext by exact HR2. apply IH; assumption.
Qed.

(** A text that is exactly a reference gives the argument value itself. *)
Lemma plain_dollar_contains k' k : plain k -> contains (DOLLAR :: k') (DOLLAR :: k) = true -> prefix k' k.
Proof.
  intros Hk H. apply contains_spec in H as ([|c a] & b & H).
  - injection H as H. exists b. exact H.
  - injection H as _ H. exfalso. apply Hk. rewrite H. apply in_or_app. right. left. reflexivity.
Qed.
Lemma resolve_value_exact gargs k v : NoDup (map fst gargs) -> prefix_free (map fst gargs) -> plain k ->
  arg_of gargs k = Some v -> resolve_value gargs (DOLLAR :: k) = v.
Proof.
  induction gargs as [|[x y] gargs IH]; intros HN HF Hk Ha; cbn [arg_of] in Ha; [discriminate|]. cbn [resolve_value map fst] in *.
  destruct (text_eqb_spec k x) as [<- | N].
  - injection Ha as ->. rewrite text_eqb_refl.
    assert (contains (DOLLAR :: k) (DOLLAR :: k) = true) as -> by (apply contains_spec; exists [], []; rewrite app_nil_r; reflexivity). reflexivity.
  - inversion HN; subst. assert (In k (map fst gargs)).
    { clear -Ha. induction gargs as [|[a b] l IH]; cbn [arg_of] in Ha; [discriminate|]. destruct (text_eqb_spec k a) as [<- | M]; [left; reflexivity|right; auto]. }
    destruct (contains (DOLLAR :: x) (DOLLAR :: k)) eqn:Ec.
    + exfalso. apply plain_dollar_contains in Ec; [|exact Hk]. apply N. symmetry. apply HF; [left; reflexivity|right; assumption|exact Ec].
    + apply IH; try assumption. intros a b A B. apply HF; right; assumption.
Qed.

Lemma contains_dollar t : contains [DOLLAR] t = false <-> plain t.
Proof.
  split.
  - intros H C. apply in_split in C as (a & b & ->). assert (contains [DOLLAR] (a ++ DOLLAR :: b) = true) by (apply contains_spec; exists a, b; reflexivity). congruence.
  - intros H. destruct (contains [DOLLAR] t) eqn:E; [|reflexivity]. exfalso. apply contains_spec in E as (a & b & ->). apply H.
    apply in_or_app. right. left. reflexivity.
Qed.
Lemma substituted_plain f ts t : plain_lits ts -> (forall r s, In r (refs ts) -> f r = Some s -> plain s) -> substituted f ts = Some t -> plain t.
Proof.
  revert t. induction ts as [|x ts IH]; intros t HL HF H; cbn [substituted] in H.
  - injection H as <-. intros [].
  - destruct (meaning f x) as [a|] eqn:E; [|discriminate]. destruct (substituted f ts) as [b|] eqn:E2; [|discriminate]. injection H as <-.
    assert (plain b). { apply IH; [intros s Hs; apply HL; right; exact Hs| |reflexivity]. intros r s Hr. apply HF. destruct x; [exact Hr|right; exact Hr]. }
    assert (plain a). { destruct x as [s|k]; cbn [meaning] in E. - injection E as ->. apply HL. left. reflexivity. - apply (HF k a); [left; reflexivity|exact E]. }
    intros C. apply in_app_or in C as [C|C]; contradiction.
Qed.

(** An unresolved reference survives. *)
Lemma resolve_value_unresolved gargs : forall ts r0, prefix_free (map fst gargs ++ refs ts) ->
  (forall k v, In (k, v) gargs -> plain k /\ plain (py_str v)) -> plain_lits ts -> (forall r, In r (refs ts) -> plain r) ->
  In r0 (refs ts) -> ~ In r0 (map fst gargs) ->
  exists t, resolve_value gargs (render [DOLLAR] ts) = PStr t /\ contains [DOLLAR] t = true.
Proof.
  induction gargs as [|[k v] gargs IH]; intros ts r0 HF HP HL HRp H0 Hn; cbn [resolve_value].
  - eexists. split; [reflexivity|]. pose proof (ref_contains [DOLLAR] ts r0 H0) as C. apply contains_spec in C as (a & b & E).
    apply contains_spec. exists a, (r0 ++ b). rewrite E, <- app_assoc. reflexivity.
  - cbn [map fst app] in *.
    assert (HP' : forall k v, In (k, v) gargs -> plain k /\ plain (py_str v)) by (intros a b Hab; apply HP; right; exact Hab).
    destruct (HP k v (or_introl eq_refl)) as (Pk & Pv).
    assert (Hcmp : forall r, In r (refs ts) -> r = k \/ (~ prefix k r /\ ~ prefix r k)).
    { intros r Hr. apply (prefix_free_cons k _ HF). apply in_or_app. right. exact Hr. }
    assert (HF' : prefix_free (map fst gargs ++ refs ts)) by (intros a b A B; apply HF; right; assumption).
    destruct (contains (DOLLAR :: k) (render [DOLLAR] ts)).
    + destruct (text_eqb_spec (render [DOLLAR] ts) (DOLLAR :: k)) as [E | N].
      * exfalso. apply Hn. left. symmetry.
        destruct (render_one ts k (fun _ => Some []) [] HL) with (2 := eq_refl (Some (@nil Z))) (3 := E) as (_ & A);
          [intros r Hr Hpre; destruct (Hcmp r Hr) as [->|(_ & C)]; [reflexivity|contradiction]|]. apply A. exact H0.
      * change (DOLLAR :: k) with ([DOLLAR] ++ k). rewrite replace_render; [|left; reflexivity|exact HL|intros r Hr; split; [auto|auto]].
        apply (IH _ r0).
        -- intros a b A B. assert (Hin : forall x, In x (map fst gargs ++ refs (map (subst1 k (py_str v)) ts)) -> In x (map fst gargs ++ refs ts)).
           { intros x Hx. apply in_app_or in Hx as [Hx|Hx]; apply in_or_app; [left; exact Hx|right]. apply refs_subst in Hx. tauto. }
           apply HF'; auto.
        -- exact HP'.
        -- apply lits_subst; assumption.
        -- intros r Hr. apply refs_subst in Hr. apply HRp. tauto.
        -- apply refs_subst. split; [exact H0|]. intros ->. apply Hn. left. reflexivity.
        -- intros C. apply Hn. right. exact C.
    + apply (IH ts r0); try assumption. intros C. apply Hn. right. exact C.
Qed.

(** ** Pd *)
Lemma findall_plain s : forall rest, plain s -> findall (s ++ rest) None = findall rest None.
Proof.
  induction s as [|c s IH]; intros rest H; [reflexivity|]. cbn [app findall]. destruct (Z.eqb_spec c DOLLAR) as [-> | N].
  - exfalso. apply H. left. reflexivity.
  - apply IH. intros C. apply H. right. exact C.
Qed.
Lemma digit_not_dollar c : is_digit c = true -> (c =? DOLLAR) = false.
Proof. unfold is_digit, DOLLAR. lia. Qed.
Lemma findall_digits k : forall d rest, forallb is_digit k = true -> d ++ k <> [] ->
  match rest with c :: _ => is_digit c = false | [] => True end ->
  findall (k ++ rest) (Some d) = (d ++ k) :: findall rest None.
Proof.
  induction k as [|c k IH]; intros d rest Hk Hne Hr; cbn [app forallb] in *.
  - rewrite app_nil_r in *. destruct d as [|x d]; [congruence|]. destruct rest as [|c rest]; cbn [findall]; [reflexivity|].
    destruct (c =? DOLLAR) eqn:E; [reflexivity|]. rewrite Hr. reflexivity.
  - apply andb_prop in Hk as (Hc & Hk). cbn [findall]. rewrite (digit_not_dollar c Hc), Hc. rewrite IH; [|exact Hk| |exact Hr].
    + rewrite <- app_assoc. reflexivity.
    + rewrite <- app_assoc. cbn [app]. destruct d; discriminate.
Qed.
Lemma findall_render ts : plain_lits ts -> maximal ts -> findall (render [BACKSLASH; DOLLAR] ts) None = refs ts.
Proof.
  induction ts as [|[s|k] ts IH]; intros HL HM; cbn [render flat_map written maximal refs] in *.
  - reflexivity.
  - rewrite findall_plain by (apply HL; left; reflexivity). apply IH; [|exact HM]. intros x Hx. apply HL. right. exact Hx.
  - destruct HM as (Hk & Hd & Hn & HM). cbn [app findall]. change (BACKSLASH =? DOLLAR) with false. change (DOLLAR =? DOLLAR) with true. cbv iota. cbn [app].
    rewrite findall_digits; [|exact Hd|exact Hk|exact Hn]. cbn [app]. f_equal. apply IH; [|exact HM]. intros x Hx. apply HL. right. exact Hx.
Qed.
Lemma digits_plain k : forallb is_digit k = true -> plain k.
Proof. intros H C. rewrite forallb_forall in H. specialize (H _ C). discriminate. Qed.
Lemma maximal_refs ts : maximal ts -> forall r, In r (refs ts) -> plain r.
Proof.
  induction ts as [|[s|k] ts IH]; intros HM r Hr; cbn [maximal refs flat_map app In] in *; [destruct Hr|apply IH; assumption|].
  destruct HM as (_ & Hd & _ & HM). destruct Hr as [<- | Hr]; [apply digits_plain; exact Hd|apply IH; assumption].
Qed.

Lemma pd_fold_ok g order : forall ts, prefix_free order -> plain_lits ts -> (forall r, In r (refs ts) -> plain r /\ In r order) ->
  (forall m, In m order -> exists v, pd_lookup g m = Some v /\ plain v) ->
  substituted (pd_lookup g) ts = Some (pd_resolve g (render [BACKSLASH; DOLLAR] ts) order).
Proof.
  unfold pd_resolve. induction order as [|m order IH]; intros ts HF HL HR HV; cbn [fold_left].
  - apply substituted_norefs. destruct (refs ts) as [|r l]; [reflexivity|]. destruct (HR r (or_introl eq_refl)) as (_ & []).
  - destruct (HV m (or_introl eq_refl)) as (v & Hv & Pv). unfold pd_subst at 2. rewrite Hv.
    change (BACKSLASH :: DOLLAR :: m) with ([BACKSLASH; DOLLAR] ++ m).
    rewrite replace_render; [|right; reflexivity|exact HL|].
    + rewrite <- IH.
      * symmetry. apply substituted_subst. exact Hv.
      * intros a b A B. apply HF; right; assumption.
      * apply lits_subst; assumption.
      * intros r Hr. apply refs_subst in Hr as (Hr & Hne). destruct (HR r Hr) as (A & [B|B]); [congruence|auto].
      * intros x Hx. apply HV. right. exact Hx.
    + intros r Hr. destruct (HR r Hr) as (A & B). split; [exact A|]. destruct B as [->|B]; [left; reflexivity|]. exact (prefix_free_cons m order HF r B).
Qed.
