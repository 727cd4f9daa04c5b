From Verif Require Import HookSpec.
From Coq Require Import List Lia ZArith.
Import ListNotations.
Open Scope Z_scope.

Lemma put_ok b at_ l : (at_ + length l <= length b)%nat -> put b at_ l = Ok (firstn at_ b ++ map Some l ++ skipn (at_ + length l) b).
Proof. intros H. unfold put. apply Nat.leb_le in H. rewrite H. reflexivity. Qed.
Lemma put_length (b : buffer) at_ (l : list Z) : (at_ + length l <= length b)%nat -> @length (option Z) (firstn at_ b ++ map Some l ++ skipn (at_ + length l) b) = length b.
Proof. intros H. rewrite !app_length, map_length, firstn_length, skipn_length. lia. Qed.
Lemma str_n_length s n : length (fst (str_n s n)) = n.
Proof. unfold str_n. cbn [fst]. rewrite app_length, firstn_length, repeat_length. lia. Qed.
Lemma str_n_short s n : (length s < n)%nat -> fst (str_n s n) = s ++ 0 :: repeat 0 (n - length s - 1).
Proof.
  intros H. unfold str_n. cbn [fst]. rewrite firstn_all2 by lia. f_equal. destruct (n - length s)%nat as [| k] eqn:E; [lia |]. cbn [repeat Nat.sub]. rewrite Nat.sub_0_r. reflexivity.
Qed.
Lemma str_n_long s n : (n <= length s)%nat -> fst (str_n s n) = firstn n s.
Proof. intros H. unfold str_n. cbn [fst]. replace (n - length s)%nat with O by lia. cbn [repeat]. apply app_nil_r. Qed.
Lemma c_string_text s b : c_text s -> c_string (map Some s ++ b) = let! t := c_string b in Ok (s ++ t).
Proof.
  induction s as [| c s IH]; intros H; cbn [map app c_string].
  - destruct (c_string b); reflexivity.
  - inversion H as [| ? ? H1 H2]. subst. destruct (Z.eqb_spec c 0); [contradiction |]. rewrite IH by exact H2. destruct (c_string b); reflexivity.
Qed.
Lemma c_text_firstn n s : c_text s -> c_text (firstn n s).
Proof. intros H. revert n. induction H; intros [| n]; cbn; constructor; auto. apply IHForall. Qed.
Lemma c_text_app s t : c_text s -> c_text t -> c_text (s ++ t).
Proof. intros A B. apply Forall_app. split; assumption. Qed.

Lemma c_string_end s k : c_text s -> c_string (map Some s ++ repeat None k) = UB.
Proof. intros H. rewrite c_string_text by exact H. destruct k; reflexivity. Qed.
Lemma skip_none k : forall n, skipn k (repeat (@None Z) n) = repeat None (n - k).
Proof. induction k as [| k IH]; intros [| n]; cbn; auto. Qed.
Lemma skipn_text n s : c_text s -> c_text (skipn n s).
Proof. intros H. revert n. induction H; intros [| n]; cbn; try constructor; auto. Qed.

Lemma dpf_runs label message : let len := Nat.min 48 (length label) in
  dpf_print label message = c_string (map Some (fst (str_n message (63 - len))) ++ map Some (skipn (63 - len) (firstn len label)) ++ repeat None (64 - len - (63 - len - len))).
Proof.
  intros len. unfold dpf_print. fold len. assert (L : (len <= 48)%nat) by (unfold len; lia).
  assert (Ef : fst (str_n label len) = firstn len label) by (apply str_n_long; unfold len; lia).
  assert (Lf : length (firstn len label) = len) by (rewrite firstn_length; unfold len; lia).
  rewrite put_ok by (rewrite str_n_length; change (length fresh) with 64%nat; lia). cbn [obind]. rewrite Ef, Lf. cbn [firstn app Nat.add]. unfold fresh. rewrite skip_none.
  set (b1 := map Some (firstn len label) ++ repeat None (64 - len)).
  assert (L1 : length b1 = 64%nat) by (unfold b1; rewrite app_length, map_length, Lf, repeat_length; lia).
  rewrite put_ok by (rewrite L1; change (length (space ++ [0])) with 2%nat; lia). cbn [obind]. change (length (space ++ [0])) with 2%nat. cbn [firstn app Nat.add]. set (b2 := map Some (space ++ [0]) ++ skipn 2 b1).
  assert (L2 : length b2 = 64%nat) by (unfold b2; rewrite app_length, skipn_length, L1; reflexivity).
  rewrite put_ok by (rewrite str_n_length, L2; lia). cbn [obind]. rewrite str_n_length. cbn [firstn app Nat.add]. do 2 f_equal.
  transitivity (skipn (63 - len) b1).
  - unfold b2. replace (63 - len)%nat with (2 + (61 - len))%nat by lia. destruct b1 as [| x [| y b1']]; [discriminate L1 | discriminate L1 | reflexivity].
  - unfold b1. rewrite skipn_app, map_length, Lf, skip_none, skipn_map. reflexivity.
Qed.
Lemma dpf_short label message : c_text message -> (length message < 63 - Nat.min 48 (length label))%nat -> dpf_print label message = Ok message.
Proof.
  intros H L. rewrite dpf_runs, str_n_short by exact L. rewrite map_app, <- app_assoc, c_string_text by exact H. cbn [map app c_string Z.eqb obind]. rewrite app_nil_r. reflexivity.
Qed.
Lemma dpf_long label message : c_text label -> c_text message -> (63 - Nat.min 48 (length label) <= length message)%nat -> dpf_print label message = UB.
Proof.
  intros Hl H L. rewrite dpf_runs, str_n_long by exact L. rewrite app_assoc, <- map_app. apply c_string_end. apply c_text_app; [apply c_text_firstn, H | apply skipn_text, c_text_firstn, Hl].
Qed.
Lemma stp_runs label message : let len := Nat.min 48 (length label) in
  stp_buffer label message = Ok (map Some (firstn 48 label ++ [32] ++ fst (str_n message (63 - len)))).
Proof.
  intros len. unfold stp_buffer. fold len. assert (L : (len <= 48)%nat) by (unfold len; lia).
  assert (Ef : fst (str_n label len) = firstn len label) by (apply str_n_long; unfold len; lia).
  assert (Lf : length (firstn len label) = len) by (rewrite firstn_length; unfold len; lia).
  assert (E48 : firstn len label = firstn 48 label) by (destruct (Nat.le_gt_cases 48 (length label)); [unfold len; rewrite Nat.min_l by lia; reflexivity | unfold len; rewrite Nat.min_r by lia; rewrite (firstn_all2 label) by lia; symmetry; apply firstn_all2; lia]).
  assert (D : snd (str_n label len) = len) by (unfold str_n; cbn [snd]; unfold len; lia).
  rewrite put_ok by (rewrite str_n_length; change (length fresh) with 64%nat; lia). cbn [obind]. rewrite D, Ef, Lf. cbn [firstn app Nat.add]. unfold fresh. rewrite skip_none.
  set (b1 := map Some (firstn len label) ++ repeat None (64 - len)).
  assert (Lm : length (map (@Some Z) (firstn len label)) = len) by (rewrite map_length; exact Lf).
  assert (L1 : length b1 = 64%nat) by (unfold b1; rewrite app_length, Lm, repeat_length; lia).
  rewrite put_ok by (rewrite L1; change (length (space ++ [0])) with 2%nat; lia). cbn [obind]. change (length (space ++ [0])) with 2%nat.
  assert (F1 : firstn len b1 = map Some (firstn len label)) by (unfold b1; rewrite firstn_app, Lm, Nat.sub_diag; cbn [firstn]; rewrite app_nil_r, <- Lm at 1; apply firstn_all).
  assert (S1 : skipn (len + 2) b1 = repeat None (62 - len)).
  { unfold b1. rewrite skipn_app, skip_none, Lm, skipn_all2 by (rewrite Lm; lia). cbn [app]. f_equal. lia. }
  rewrite F1, S1. rewrite put_ok by (rewrite !app_length, str_n_length, Lm, repeat_length; change (length (map Some (space ++ [0]))) with 2%nat; lia). rewrite str_n_length. f_equal.
  rewrite firstn_app, Lm. replace (len + 1 - len)%nat with 1%nat by lia. rewrite firstn_all2 by (rewrite Lm; lia). cbn [space app map firstn].
  rewrite skipn_all2 by (rewrite !app_length, Lm; cbn [length]; rewrite repeat_length; lia). rewrite app_nil_r, map_app. cbn [map app]. rewrite <- app_assoc. cbn [app].
  rewrite E48. reflexivity.
Qed.
Lemma stp_short label message : c_text label -> c_text message -> (length message < 63 - Nat.min 48 (length label))%nat -> stp_print label message = Ok (line (firstn 48 label) message).
Proof.
  intros Hl H L. unfold stp_print. rewrite stp_runs. cbn [obind]. rewrite str_n_short by exact L. rewrite !app_assoc, map_app, c_string_text.
  - cbn [map c_string Z.eqb obind]. rewrite app_nil_r. unfold line. rewrite app_assoc. reflexivity.
  - apply c_text_app; [apply c_text_app; [apply c_text_firstn, Hl |] | exact H]. constructor; [discriminate | constructor].
Qed.
Lemma stp_long label message : c_text label -> c_text message -> (63 - Nat.min 48 (length label) <= length message)%nat -> stp_print label message = UB.
Proof.
  intros Hl H L. unfold stp_print. rewrite stp_runs. cbn [obind]. rewrite str_n_long by exact L. rewrite <- (app_nil_r (map _ _)).
  apply (c_string_end _ 0). apply c_text_app; [apply c_text_firstn, Hl |]. constructor; [discriminate |]. apply c_text_firstn, H.
Qed.
