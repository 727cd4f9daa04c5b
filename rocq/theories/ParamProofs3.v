(** getParameterInfo, and the words of @raw. *)
From Verif Require Import ParamSpec ArgsProofs ParamProofs2.
From Coq Require Import String List Lia ZArith Permutation Sorted.
Import ListNotations.
Local Open Scope list_scope.
Open Scope Z_scope.

Lemma perm_in {A} (x : A) l m : Permutation l m -> In x l <-> In x m.
Proof. intros P. split; apply Permutation_in; [exact P | apply Permutation_sym, P]. Qed.
Lemma extern_member pick boxes x : names_apart boxes -> In x (externs (fst (group pick boxes))) <->
  exists n, In n (map b_name boxes) /\ v_ext (fst (group_one pick boxes n)) <> None /\ x = (escape n, fst (group_one pick boxes n)).
Proof.
  intros A. rewrite (perm_in x _ _ (externs_in pick boxes A)), in_map_iff. split.
  - intros (n & <- & I). apply filter_In in I as [I E]. exists n. split; [apply first_uses_spec, I |]. split; [| reflexivity].
    intros H. rewrite H in E. discriminate E.
  - intros (n & I & E & ->). exists n. split; [reflexivity |]. apply filter_In. split; [apply first_uses_spec, I |]. destruct (v_ext (fst (group_one pick boxes n))); [reflexivity | congruence].
Qed.
Lemma info_at rs i x : nth_error (externs rs) i = Some x ->
  i_name (fst (get_parameter_info rs (Z.of_nat i))) = v_name (snd x).
Proof.
  intros E. unfold get_parameter_info. cbn [fst]. destruct (Z.leb_spec 0 (Z.of_nat i)); [| lia]. rewrite Nat2Z.id, E. destruct x as [k v]. cbn [snd].
  destruct (v_ext v) as [[|] |], (v_attrs v); reflexivity.
Qed.
Lemma info_describes pick boxes i : names_apart boxes -> (forall b, In b boxes -> sound_box b) -> snd (group pick boxes) = O ->
  (i < length (externs (fst (group pick boxes))))%nat -> describes boxes (fst (get_parameter_info (fst (group pick boxes)) (Z.of_nat i))).
Proof.
  intros A Hs H0 L. destruct (nth_error (externs (fst (group pick boxes))) i) as [x |] eqn:E; [| apply nth_error_None in E; lia].
  assert (M := nth_error_In _ _ E). apply (extern_member pick boxes x A) in M as (n & I & V & ->).
  assert (Nn : In n (first_uses (map b_name boxes))) by (apply first_uses_spec, I).
  destruct (group_exported pick boxes n (group_no_errors pick boxes H0 n Nn) Hs) as (G1 & G2 & G3). cbn zeta in *.
  unfold get_parameter_info. destruct (Z.leb_spec 0 (Z.of_nat i)); [| lia]. cbn [fst]. rewrite Nat2Z.id, E.
  assert (Ex : exported boxes n) by (apply G1, V).
  assert (Nm : v_name (fst (group_one pick boxes n)) = n) by reflexivity. revert V G1 G2 G3 Nm. generalize (fst (group_one pick boxes n)). intros v V G1 G2 G3 Nm.
  destruct (v_ext v) as [[|] |] eqn:Ev; [| | congruence].
  - destruct (G3 eq_refl) as (a & Ea & Ga). rewrite Ea. unfold describes. cbn [i_name i_hash i_kind i_min i_max i_default]. rewrite Nm.
    split; [exact Ex |]. split; [reflexivity |]. split; [intros b e Ib Nb Eb; specialize (G2 b e Ib Nb Eb); congruence |].
    intros _ b c Ib Nb Eb. specialize (Ga b c Ib Nb Eb). unfold attrs_eqb in Ga. repeat (apply andb_prop in Ga as [Ga ?]). auto.
  - unfold describes. replace (match v_attrs v with Some _ => _ | None => _ end) with (mkInfo (v_name v) (py_get_hash (v_name v)) Event (d_of_int 0) (d_of_int 0) (d_of_int 0)) by (destruct (v_attrs v); reflexivity).
    cbn [i_name i_hash i_kind i_min i_max i_default]. rewrite Nm. split; [exact Ex |]. split; [reflexivity |]. split; [intros b e Ib Nb Eb; specialize (G2 b e Ib Nb Eb); congruence | discriminate].
Qed.
Lemma info_once pick boxes n : names_apart boxes -> (forall b, In b boxes -> sound_box b) -> snd (group pick boxes) = O -> exported boxes n ->
  exists i, (i < length (externs (fst (group pick boxes))))%nat /\ i_name (fst (get_parameter_info (fst (group pick boxes)) (Z.of_nat i))) = n /\
    forall j, (j < length (externs (fst (group pick boxes))))%nat -> i_name (fst (get_parameter_info (fst (group pick boxes)) (Z.of_nat j))) = n -> j = i.
Proof.
  intros A Hs H0 (b & Ib & Nb & Eb). assert (I : In n (map b_name boxes)) by (subst n; apply in_map, Ib).
  assert (Nn : In n (first_uses (map b_name boxes))) by (apply first_uses_spec, I).
  destruct (group_exported pick boxes n (group_no_errors pick boxes H0 n Nn) Hs) as (G1 & _).
  assert (M : In (escape n, fst (group_one pick boxes n)) (externs (fst (group pick boxes)))).
  { apply (extern_member pick boxes _ A). exists n. split; [exact I |]. split; [apply G1; exists b; auto | reflexivity]. }
  apply In_nth_error in M as [i E]. exists i. split; [apply nth_error_Some; congruence |]. split; [rewrite (info_at _ _ _ E); reflexivity |].
  intros j Lj Ej. destruct (nth_error (externs (fst (group pick boxes))) j) as [y |] eqn:Ey; [| apply nth_error_None in Ey; lia].
  rewrite (info_at _ _ _ Ey) in Ej. assert (N := NoDup_externs pick boxes A). rewrite NoDup_nth_error in N. apply N.
  - rewrite map_length. exact Lj.
  - rewrite !nth_error_map, Ey, E. cbn [option_map snd]. rewrite Ej. reflexivity.
Qed.
Lemma info_sorted pick boxes i j : names_apart boxes -> (i < j < length (externs (fst (group pick boxes))))%nat ->
  text_leb (escape (i_name (fst (get_parameter_info (fst (group pick boxes)) (Z.of_nat i))))) (escape (i_name (fst (get_parameter_info (fst (group pick boxes)) (Z.of_nat j))))) = true.
Proof.
  intros A [L1 L2].
  destruct (nth_error (externs (fst (group pick boxes))) i) as [x |] eqn:Ex; [| apply nth_error_None in Ex; lia].
  destruct (nth_error (externs (fst (group pick boxes))) j) as [y |] eqn:Ey; [| apply nth_error_None in Ey; lia].
  rewrite (info_at _ _ _ Ex), (info_at _ _ _ Ey).
  assert (K : forall z, In z (externs (fst (group pick boxes))) -> escape (v_name (snd z)) = fst z).
  { intros z Hz. apply (extern_member pick boxes z A) in Hz as (n & _ & _ & ->). reflexivity. }
  rewrite (K x (nth_error_In _ _ Ex)), (K y (nth_error_In _ _ Ey)).
  assert (S := filter_sorted (fun x => match v_ext (snd x) with Some _ => true | None => false end) _ (sort_sorted (receiver_dict (fst (group pick boxes))))).
  exact (sorted_nth _ S i j x y L1 Ex Ey).
Qed.
Lemma info_outside rs i : ~ 0 <= i < zlen (externs rs) -> fst (get_parameter_info rs i) = invalid_info.
Proof.
  intros H. unfold get_parameter_info. cbn [fst]. destruct (Z.leb_spec 0 i); [| reflexivity].
  replace (nth_error (externs rs) (Z.to_nat i)) with (@None (list Z * receiver)); [reflexivity |]. symmetry. apply nth_error_None. unfold zlen in H. lia.
Qed.
(** ** One word of @raw *)
Lemma raw_words_nodup : NoDup raw_words.
Proof. unfold raw_words. repeat constructor; cbn; intuition discriminate. Qed.
Lemma one_word fl order order' args w : Permutation order raw_words -> Permutation order' raw_words -> In w raw_words ->
  (forall u, In u raw_words -> In u (map replace_owl args) -> u = w) -> receive_box fl order args = receive_box fl order' args.
Proof.
  intros P P' Iw H. unfold receive_box. replace (raw_attrs fl order args) with (raw_attrs fl order' args); [reflexivity |]. unfold raw_attrs.
  rewrite !(fold_one fl (map replace_owl args) w); try reflexivity.
  - apply (Permutation_NoDup (Permutation_sym P)), raw_words_nodup.
  - apply (Permutation_in w (Permutation_sym P)), Iw.
  - intros u I. apply H. exact (Permutation_in u P I).
  - apply (Permutation_NoDup (Permutation_sym P')), raw_words_nodup.
  - apply (Permutation_in w (Permutation_sym P')), Iw.
  - intros u I. apply H. exact (Permutation_in u P' I).
Qed.

Lemma upper_same a : forall b, upper a = upper b <-> same_but_case a b.
Proof.
  induction a as [| x a IH]; intros [| y b]; cbn [upper map].
  - split; [constructor | reflexivity].
  - split; intros H; [discriminate H | inversion H].
  - split; intros H; [discriminate H | inversion H].
  - split; intros H.
    + injection H as H1 H2. constructor; [| apply IH; exact H2]. unfold same_letter.
      destruct (Z.leb_spec 97 x), (Z.leb_spec x 122), (Z.leb_spec 97 y), (Z.leb_spec y 122); cbn [andb] in H1; lia.
    + inversion H as [| ? ? ? ? H1 H2]. subst. f_equal; [| apply IH; exact H2]. unfold same_letter in H1.
      destruct (Z.leb_spec 97 x), (Z.leb_spec x 122), (Z.leb_spec 97 y), (Z.leb_spec y 122); cbn [andb]; lia.
Qed.
Lemma nodup_apart l : NoDup (map upper l) <-> forall i j a b, (i < j)%nat -> nth_error l i = Some a -> nth_error l j = Some b -> ~ same_but_case a b.
Proof.
  split.
  - intros N i j a b L A B C. apply upper_same in C. rewrite NoDup_nth_error in N. assert (E : i = j); [| lia]. apply N.
    + rewrite map_length. apply nth_error_Some. congruence.
    + rewrite !nth_error_map, A, B. cbn. congruence.
  - induction l as [| x l IH]; intros H; cbn [map]; constructor.
    + intros I. apply in_map_iff in I as (y & E & I). apply In_nth_error in I as [j J]. apply (H O (S j) x y ltac:(lia) eq_refl J). apply upper_same. congruence.
    + apply IH. intros i j a b L A B. exact (H (S i) (S j) a b ltac:(lia) A B).
Qed.
Lemma raw_given fl order name out lo hi d x y z : Permutation order raw_words ->
  (forall u, In u raw_words -> In u (map replace_owl [name; out; lo; hi; d]) -> False) ->
  fl (replace_owl lo) = Some x -> fl (replace_owl hi) = Some y -> fl (replace_owl d) = Some z ->
  receive_box fl order [name; T "@raw"; out; lo; hi; d] = mkBox name (Some Param) (Some (mkAttrs x y z None (Some (replace_owl out)))) 0.
Proof.
  intros P F E1 E2 E3. unfold receive_box. cbn [nth_error]. change (text_eqb (T "@raw") (T "@hv_param")) with false. change (text_eqb (T "@raw") (T "@hv_event")) with false. cbn [b_errors b_attrs].
  replace (existsb (text_eqb (T "@raw")) [name; T "@raw"; out; lo; hi; d]) with true; [| symmetry; apply existsb_text; right; left; reflexivity]. cbn [orb].
  unfold raw_attrs. change (map replace_owl [name; T "@raw"; out; lo; hi; d]) with [replace_owl name; T "@raw"; replace_owl out; replace_owl lo; replace_owl hi; replace_owl d].
  rewrite (fold_one fl _ (T "@raw")).
  - unfold raw_round. cbn [index_of]. destruct (text_eqb_spec (T "@raw") (replace_owl name)) as [E | _].
    + exfalso. apply (F (T "@raw")); [left; reflexivity |]. cbn [map In]. left. symmetry. exact E.
    + rewrite text_eqb_refl. cbn [option_map Nat.add nth_error]. rewrite E1, E2, E3. cbn [w_min w_max w_default w_raw]. reflexivity.
  - apply (Permutation_NoDup (Permutation_sym P)), raw_words_nodup.
  - apply (Permutation_in _ (Permutation_sym P)). left. reflexivity.
  - intros u I J. apply (Permutation_in u P) in I. cbn [In] in J. destruct J as [J | [J | J]]; [| congruence |]; exfalso; apply (F u I); cbn [map In]; intuition.
Qed.
