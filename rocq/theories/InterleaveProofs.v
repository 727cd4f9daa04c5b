(** Proofs for C27. *)
From Verif Require Import InterleaveModel InterleaveSpec.
Local Open Scope nat_scope.

Section P.
Context {A : Type}.
Notation wr := (list (nat * A)).
Definition exec (ws : wr) (m : list A) : outcome (list A) := foldM (fun '(i, a) m => st m i a) ws m.

Lemma foldM_app {X Y} (f : X -> Y -> outcome Y) l1 l2 y :
  foldM f (l1 ++ l2) y = obind (foldM f l1 y) (foldM f l2).
Proof. revert y; induction l1 as [|x l1 IH]; intro y; [reflexivity|]. cbn. destruct (f x y); cbn; auto. Qed.
Lemma foldM_ext {X Y} (f g : X -> Y -> outcome Y) l y : (forall x y, In x l -> f x y = g x y) -> foldM f l y = foldM g l y.
Proof.
  revert y; induction l as [|x l IH]; intros y H; [reflexivity|]. cbn. rewrite H by (left; auto).
  destruct (g x y); cbn; auto. apply IH. intros; apply H; right; auto.
Qed.
Lemma foldM_flat {X} (f : X -> list A -> outcome (list A)) (ws : X -> wr) l m :
  (forall x m, In x l -> f x m = exec (ws x) m) -> foldM f l m = exec (flat_map ws l) m.
Proof.
  revert m; induction l as [|x l IH]; intros m H; [reflexivity|].
  cbn [foldM flat_map]. unfold exec. rewrite foldM_app. rewrite H by (left; auto). unfold exec.
  destruct (foldM _ (ws x) m); cbn [obind]; auto. apply IH. intros; apply H; right; auto.
Qed.

Lemma st_nth m i (a : A) : i < length m -> exists m', st m i a = Ok m' /\ length m' = length m /\
  nth_error m' i = Some a /\ (forall x, x <> i -> nth_error m' x = nth_error m x).
Proof.
  intro H. unfold st. apply Nat.ltb_lt in H as H'. rewrite H'. eexists; split; [reflexivity|].
  assert (L : length (firstn i m) = i) by (rewrite firstn_length; lia).
  split. { rewrite app_length; cbn. rewrite skipn_length. lia. }
  split. { rewrite nth_error_app2 by lia. rewrite L, Nat.sub_diag. reflexivity. }
  intros x Hx. destruct (Nat.lt_ge_cases x i).
  - rewrite nth_error_app1 by lia. rewrite <- (firstn_skipn i m) at 2. rewrite nth_error_app1 by lia. auto.
  - rewrite nth_error_app2 by lia. rewrite L. replace (x - i) with (S (x - (i + 1))) by lia. cbn [nth_error].
    rewrite <- (firstn_skipn (i + 1) m) at 2.
    assert (L1 : length (firstn (i + 1) m) = i + 1) by (rewrite firstn_length; lia).
    rewrite nth_error_app2 by lia. rewrite L1. auto.
Qed.
Lemma nth_error_ext' (m t : list A) : length m = length t -> (forall x, x < length t -> nth_error m x = nth_error t x) -> m = t.
Proof.
  revert t; induction m as [|a m IH]; intros [|b t] L H; cbn in L; try lia; auto.
  f_equal. { specialize (H 0 ltac:(cbn; lia)). cbn in H. congruence. }
  apply IH; [lia|]. intros x Hx. apply (H (S x)). cbn. lia.
Qed.
(** If every store agrees with [t] and everything else already does, the result is [t]. *)
Lemma exec_target t : forall (ws : wr) m,
  (forall i a, In (i, a) ws -> nth_error t i = Some a) -> length m = length t ->
  (forall x, x < length t -> In x (map fst ws) \/ nth_error m x = nth_error t x) -> exec ws m = Ok t.
Proof.
  induction ws as [|[i a] ws IH]; intros m W L H.
  - cbn. f_equal. apply nth_error_ext'; auto. intros x Hx. destruct (H x Hx) as [[]|]; auto.
  - unfold exec. cbn [foldM]. pose proof (W i a (or_introl eq_refl)) as Wi.
    assert (Hi : i < length m) by (rewrite L; apply nth_error_Some; congruence).
    destruct (st_nth m i a Hi) as (m' & E & L' & Ni & Nx). rewrite E. cbn [obind]. apply IH.
    + intros; apply W; right; auto.
    + congruence.
    + intros x Hx. destruct (Nat.eq_dec x i) as [->|D]; [right; congruence|].
      rewrite Nx by auto. destruct (H x Hx) as [[F|F]|F]; auto. cbn in F. congruence.
Qed.

Definition w4 (i : nat) (v : vec4 A) : wr := match v with V4 a b c d => [(i, a); (i + 1, b); (i + 2, c); (i + 3, d)] end.
Lemma obind_ok {X} (o : outcome X) : obind o Ok = o. Proof. destruct o; reflexivity. Qed.
Lemma st4_exec m i v : st4 m i v = exec (w4 i v) m.
Proof.
  destruct v. unfold st4, exec, w4. cbn [foldM].
  repeat match goal with |- obind (st ?m ?i ?a) _ = _ => destruct (st m i a); cbn [obind]; auto end.
  symmetry. apply obind_ok.
Qed.
Lemma exec_app ws1 ws2 m : obind (exec ws1 m) (exec ws2) = exec (ws1 ++ ws2) m.
Proof. unfold exec. rewrite foldM_app. reflexivity. Qed.
Lemma exec_st4_2 m i v j w : obind (st4 m i v) (fun m => st4 m j w) = exec (w4 i v ++ w4 j w) m.
Proof.
  rewrite <- exec_app, <- st4_exec. destruct (st4 m i v); cbn; auto. apply st4_exec.
Qed.
Lemma stn_exec l : forall m i, stn m i l = exec (combine (seq i (length l)) l) m.
Proof.
  induction l as [|a l IH]; intros m i; [reflexivity|].
  unfold exec. cbn. destruct (st m i a); cbn; auto. rewrite IH. rewrite Nat.add_comm. reflexivity.
Qed.
Lemma ld_some m i (a : A) : nth_error m i = Some a -> ld m i = Ok a.
Proof. unfold ld. intros ->. reflexivity. Qed.
Lemma ldn_map m i n (f : nat -> A) : (forall l, l < n -> nth_error m (i + l) = Some (f l)) ->
  ldn m i n = Ok (map f (seq 0 n)).
Proof.
  revert i f; induction n as [|n IH]; intros i f H; [reflexivity|].
  cbn [ldn]. rewrite (ld_some m i (f 0)) by (rewrite <- (H 0) by lia; f_equal; lia). cbn [obind].
  rewrite (IH (i + 1) (fun l => f (S l))).
  - cbn [obind seq map]. rewrite <- (seq_shift n 0), map_map. reflexivity.
  - intros l Hl. rewrite <- (H (S l)) by lia. f_equal. lia.
Qed.
Lemma ld4_some m i (f : nat -> A) : (forall l, l < 4 -> nth_error m (i + l) = Some (f l)) ->
  ld4 m i = Ok (V4 (f 0) (f 1) (f 2) (f 3)).
Proof.
  intro H. unfold ld4. rewrite (ld_some m i (f 0)) by (rewrite <- (H 0) by lia; f_equal; lia). cbn [obind].
  rewrite (ld_some _ _ _ (H 1 ltac:(lia))), (ld_some _ _ _ (H 2 ltac:(lia))), (ld_some _ _ _ (H 3 ltac:(lia))). reflexivity.
Qed.

(** Buffers from their contents. *)
Lemma tab_nth (g : nat -> A) n p : p < n -> nth_error (map g (seq 0 n)) p = Some (g p).
Proof.
  intro H. rewrite nth_error_map. replace (nth_error (seq 0 n) p) with (Some p); [reflexivity|].
  symmetry. rewrite (nth_error_nth' _ 0) by (rewrite seq_length; auto). rewrite seq_nth by auto. f_equal.
Qed.
Lemma pack_div n c j : j < n -> (c * n + j) / n = c /\ (c * n + j) mod n = j.
Proof.
  intro H. split.
  - rewrite Nat.div_add_l by lia. rewrite Nat.div_small by auto. lia.
  - rewrite Nat.add_comm, Nat.mod_add by lia. apply Nat.mod_small; auto.
Qed.
Lemma planar_exists C n (x : audio A) : exists t, planar C n t x.
Proof.
  exists (map (fun p => x (p / n) (p mod n)) (seq 0 (C * n))). split. { rewrite map_length, seq_length; auto. }
  intros c j Hc Hj. rewrite tab_nth by nia. destruct (pack_div n c j Hj) as [-> ->]. auto.
Qed.
Lemma interleaved_exists C n (x : audio A) : exists t, interleaved C n t x.
Proof.
  exists (map (fun p => x (p mod C) (p / C)) (seq 0 (C * n))). split. { rewrite map_length, seq_length; auto. }
  intros c j Hc Hj. rewrite tab_nth by nia. destruct (pack_div C j c Hc) as [E F].
  rewrite (Nat.mul_comm C j), E, F. auto.
Qed.
Lemma planar_exec C n x (ws : wr) m : length m = C * n ->
  (forall i a, In (i, a) ws -> exists c j, c < C /\ j < n /\ i = c * n + j /\ a = x c j) ->
  (forall c j, c < C -> j < n -> In (c * n + j) (map fst ws)) ->
  exists t, exec ws m = Ok t /\ planar C n t x.
Proof.
  intros L W Cov. destruct (planar_exists C n x) as [t Ht]. exists t. split; auto. destruct Ht as [Lt Ht].
  apply exec_target; [|congruence|].
  - intros i a I. destruct (W i a I) as (c & j & Hc & Hj & -> & ->). auto.
  - intros p Hp. left. assert (n <> 0) by nia. rewrite (Nat.div_mod p n) by auto. rewrite Nat.mul_comm. apply Cov.
    + apply Nat.div_lt_upper_bound; nia. + apply Nat.mod_upper_bound; auto.
Qed.
Lemma interleaved_exec C n x (ws : wr) m : length m = C * n ->
  (forall i a, In (i, a) ws -> exists c j, c < C /\ j < n /\ i = C * j + c /\ a = x c j) ->
  (forall c j, c < C -> j < n -> In (C * j + c) (map fst ws)) ->
  exists t, exec ws m = Ok t /\ interleaved C n t x.
Proof.
  intros L W Cov. destruct (interleaved_exists C n x) as [t Ht]. exists t. split; auto. destruct Ht as [Lt Ht].
  apply exec_target; [|congruence|].
  - intros i a I. destruct (W i a I) as (c & j & Hc & Hj & -> & ->). auto.
  - intros p Hp. left. assert (C <> 0) by nia. rewrite (Nat.div_mod p C) by auto. apply Cov.
    + apply Nat.mod_upper_bound; auto. + apply Nat.div_lt_upper_bound; nia.
Qed.

Lemma for_flat n (f : nat -> list A -> outcome (list A)) (ws : nat -> wr) m :
  (forall k m, k < n -> f k m = exec (ws k) m) -> for_ n f m = exec (flat_map ws (seq 0 n)) m.
Proof. intro H. apply foldM_flat. intros k m' I. apply H. apply in_seq in I. lia. Qed.
Lemma in_fm {X} (ws : nat -> list X) n p : In p (flat_map ws (seq 0 n)) <-> exists k, k < n /\ In p (ws k).
Proof.
  rewrite in_flat_map. split; intros (k & H & I); exists k; split; auto.
  - apply in_seq in H. lia. - apply in_seq. lia.
Qed.
Lemma in_fm_fst (ws : nat -> wr) n i : (exists k a, k < n /\ In (i, a) (ws k)) -> In i (map fst (flat_map ws (seq 0 n))).
Proof. intros (k & a & H & I). apply in_map_iff. exists (i, a). split; auto. apply in_fm. eauto. Qed.

Lemma steps_mult q s : 0 < s -> steps (q * s) s = q.
Proof.
  intro H. unfold steps. replace (q * s + s - 1) with (s - 1 + q * s) by lia.
  rewrite Nat.div_add by lia. rewrite Nat.div_small by lia. lia.
Qed.

(** The writes of one iteration of the stereo loops. *)
Definition dw (n : nat) (x : audio A) (k : nat) : wr :=
  w4 (4 * k) (V4 (x 0 (4 * k)) (x 0 (4 * k + 1)) (x 0 (4 * k + 2)) (x 0 (4 * k + 3))) ++
  w4 (n + 4 * k) (V4 (x 1 (4 * k)) (x 1 (4 * k + 1)) (x 1 (4 * k + 2)) (x 1 (4 * k + 3))).
Lemma mod4 j : exists k r, r < 4 /\ j = 4 * k + r.
Proof. exists (j / 4), (j mod 4). split. - apply Nat.mod_upper_bound; lia. - apply Nat.div_mod; lia. Qed.
Lemma dw_planar q x m : length m = 2 * (q * 4) -> exists t, exec (flat_map (dw (q * 4) x) (seq 0 q)) m = Ok t /\ planar 2 (q * 4) t x.
Proof.
  intro L. apply planar_exec; auto.
  - intros i a I. apply in_fm in I as (k & Hk & I). unfold dw, w4 in I. cbn [app In] in I.
    repeat match goal with H : _ \/ _ |- _ => destruct H as [H|H] end; try tauto; injection I as <- <-;
    match goal with |- exists c j, _ /\ _ /\ _ /\ x ?c' ?j' = x c j => exists c', j' end; repeat split; lia.
  - intros c j Hc Hj. apply in_fm_fst. destruct (mod4 j) as (k & r & Hr & ->). exists k.
    assert (c = 0 \/ c = 1) as [-> | ->] by lia;
    (assert (r = 0 \/ r = 1 \/ r = 2 \/ r = 3) as [-> | [-> | [-> | ->]]] by lia);
    eexists; (split; [lia|]); unfold dw, w4; cbn [app In];
    rewrite ?Nat.mul_0_l, ?Nat.mul_1_l, ?Nat.add_0_l, ?Nat.add_0_r, ?Nat.add_assoc; eauto 12.
Qed.
Lemma deint_sse_ok q inp (x : audio A) m : interleaved 2 (q * 4) inp x -> length m = 2 * (q * 4) ->
  exists t, deint_sse inp (q * 4) m = Ok t /\ planar 2 (q * 4) t x.
Proof.
  intros [Li Hi] L. destruct (dw_planar q x m L) as (t & E & P). exists t. split; auto. rewrite <- E.
  unfold deint_sse. rewrite steps_mult by lia. apply for_flat. intros k m' Hk. cbv zeta.
  rewrite (ld4_some inp (8 * k) (fun l => x (l mod 2) (4 * k + l / 2))).
  2:{ intros l Hl. rewrite <- (Hi (l mod 2) (4 * k + l / 2)).
      - f_equal. pose proof (Nat.div_mod l 2). lia. - apply Nat.mod_upper_bound. lia.
      - assert (l / 2 < 2) by (apply Nat.div_lt_upper_bound; lia). lia. }
  cbn [obind].
  rewrite (ld4_some inp (4 + 8 * k) (fun l => x (l mod 2) (4 * k + 2 + l / 2))).
  2:{ intros l Hl. rewrite <- (Hi (l mod 2) (4 * k + 2 + l / 2)).
      - f_equal. pose proof (Nat.div_mod l 2). lia. - apply Nat.mod_upper_bound. lia.
      - assert (l / 2 < 2) by (apply Nat.div_lt_upper_bound; lia). lia. }
  cbn [obind]. rewrite exec_st4_2. unfold dw. f_equal.
  unfold shuffle; cbn [lane]. change (0 / 2) with 0. change (1 / 2) with 0. change (2 / 2) with 1. change (3 / 2) with 1.
  cbn [Nat.modulo Nat.divmod fst snd Nat.sub].
  rewrite !Nat.add_0_r. replace (4 * k + 2 + 1) with (4 * k + 3) by lia. reflexivity.
Qed.
Lemma deint_neon_ok q inp (x : audio A) m : interleaved 2 (q * 4) inp x -> length m = 2 * (q * 4) ->
  exists t, deint_neon inp (q * 4) m = Ok t /\ planar 2 (q * 4) t x.
Proof.
  intros [Li Hi] L. destruct (dw_planar q x m L) as (t & E & P). exists t. split; auto. rewrite <- E.
  unfold deint_neon. rewrite steps_mult by lia. apply for_flat. intros k m' Hk. cbv zeta. unfold vld2q, ld8.
  rewrite (ld4_some inp (8 * k) (fun l => x (l mod 2) (4 * k + l / 2))).
  2:{ intros l Hl. rewrite <- (Hi (l mod 2) (4 * k + l / 2)).
      - f_equal. pose proof (Nat.div_mod l 2). lia. - apply Nat.mod_upper_bound. lia.
      - assert (l / 2 < 2) by (apply Nat.div_lt_upper_bound; lia). lia. }
  cbn [obind].
  rewrite (ld4_some inp (8 * k + 4) (fun l => x (l mod 2) (4 * k + 2 + l / 2))).
  2:{ intros l Hl. rewrite <- (Hi (l mod 2) (4 * k + 2 + l / 2)).
      - f_equal. pose proof (Nat.div_mod l 2). lia. - apply Nat.mod_upper_bound. lia.
      - assert (l / 2 < 2) by (apply Nat.div_lt_upper_bound; lia). lia. }
  cbn [obind]. rewrite exec_st4_2. unfold dw. f_equal.
  change (0 / 2) with 0. change (1 / 2) with 0. change (2 / 2) with 1. change (3 / 2) with 1.
  cbn [Nat.modulo Nat.divmod fst snd Nat.sub].
  rewrite !Nat.add_0_r. replace (4 * k + 2 + 1) with (4 * k + 3) by lia. reflexivity.
Qed.
Lemma deint_scalar_ok C n inp (x : audio A) m : interleaved C n inp x -> length m = C * n ->
  exists t, deint_scalar C inp n m = Ok t /\ planar C n t x.
Proof.
  intros [Li Hi] L.
  destruct (planar_exec C n x (flat_map (fun j => flat_map (fun i => [(i * n + j, x i j)]) (seq 0 C)) (seq 0 n)) m L) as (t & E & P).
  - intros i a I. apply in_fm in I as (j & Hj & I). apply in_fm in I as (c & Hc & [I|[]]). injection I as <- <-. eauto 8.
  - intros c j Hc Hj. apply in_fm_fst. exists j, (x c j). split; auto. apply in_fm. exists c. split; auto. left; auto.
  - exists t. split; auto. rewrite <- E. apply for_flat. intros j m' Hj. apply for_flat. intros i m'' Hi'.
    rewrite (ld_some inp (i + C * j) (x i j)) by (rewrite Nat.add_comm; auto). cbn [obind]. unfold exec. cbn [foldM].
    symmetry. apply obind_ok.
Qed.
Lemma int_scalar_ok D n bOut (x : audio A) m : planar D n bOut x -> length m = D * n ->
  exists t, int_scalar D bOut n m = Ok t /\ interleaved D n t x.
Proof.
  intros [Lb Hb] L.
  destruct (interleaved_exec D n x (flat_map (fun i => flat_map (fun j => [(i + D * j, x i j)]) (seq 0 n)) (seq 0 D)) m L) as (t & E & P).
  - intros i a I. apply in_fm in I as (c & Hc & I). apply in_fm in I as (j & Hj & [I|[]]). injection I as <- <-.
    exists c, j. repeat split; auto. lia.
  - intros c j Hc Hj. apply in_fm_fst. exists c, (x c j). split; auto. apply in_fm. exists j. split; auto. left. f_equal. lia.
  - exists t. split; auto. rewrite <- E. apply for_flat. intros i m' Hi. apply for_flat. intros j m'' Hj.
    rewrite (ld_some bOut (i * n + j) (x i j)) by auto. cbn [obind]. unfold exec. cbn [foldM].
    symmetry. apply obind_ok.
Qed.

(** One iteration of the stereo interleaving loop: eight stores, four frames. *)
Definition iw (x : audio A) (k : nat) : wr :=
  w4 (8 * k) (V4 (x 0 (4 * k)) (x 1 (4 * k)) (x 0 (4 * k + 1)) (x 1 (4 * k + 1))) ++
  w4 (4 + 8 * k) (V4 (x 0 (4 * k + 2)) (x 1 (4 * k + 2)) (x 0 (4 * k + 3)) (x 1 (4 * k + 3))).
Lemma iw_interleaved q x m : length m = 2 * (q * 4) -> exists t, exec (flat_map (iw x) (seq 0 q)) m = Ok t /\ interleaved 2 (q * 4) t x.
Proof.
  intro L. apply interleaved_exec; auto.
  - intros i a I. apply in_fm in I as (k & Hk & I). unfold iw, w4 in I. cbn [app In] in I.
    repeat match goal with H : _ \/ _ |- _ => destruct H as [H|H] end; try tauto; injection I as <- <-;
    match goal with |- exists c j, _ /\ _ /\ _ /\ x ?c' ?j' = x c j => exists c', j' end; repeat split; lia.
  - intros c j Hc Hj. apply in_fm_fst. destruct (mod4 j) as (k & r & Hr & ->). exists k, (x c (4 * k + r)). split; [lia|].
    assert (c = 0 \/ c = 1) as [-> | ->] by lia;
    (assert (r = 0 \/ r = 1 \/ r = 2 \/ r = 3) as [-> | [-> | [-> | ->]]] by lia);
    unfold iw, w4; cbn [app In]; rewrite ?(Nat.add_0_r (4 * k));
    [ do 0 right | do 2 right | do 4 right | do 6 right | do 1 right | do 3 right | do 5 right | do 7 right ]; left; f_equal; lia.
Qed.
Lemma ld4_ch bOut n (x : audio A) c k : planar 2 n bOut x -> c < 2 -> 4 * k + 4 <= n ->
  ld4 bOut (c * n + 4 * k) = Ok (V4 (x c (4 * k)) (x c (4 * k + 1)) (x c (4 * k + 2)) (x c (4 * k + 3))).
Proof.
  intros [Lb Hb] Hc Hk. rewrite (ld4_some bOut _ (fun l => x c (4 * k + l))). { rewrite Nat.add_0_r. auto. }
  intros l Hl. rewrite <- Hb by lia. f_equal. lia.
Qed.
Lemma int_sse_ok q bOut (x : audio A) m : planar 2 (q * 4) bOut x -> length m = 2 * (q * 4) ->
  exists t, int_sse bOut (q * 4) m = Ok t /\ interleaved 2 (q * 4) t x.
Proof.
  intros Hb L. destruct (iw_interleaved q x m L) as (t & E & P). exists t. split; auto. rewrite <- E.
  unfold int_sse. rewrite steps_mult by lia. apply for_flat. intros k m' Hk. cbv zeta.
  change (4 * k) with (0 * (q * 4) + 4 * k) at 1. replace (q * 4 + 4 * k) with (1 * (q * 4) + 4 * k) by lia.
  rewrite !(ld4_ch bOut (q * 4) x) by (auto; lia). cbn [obind]. rewrite exec_st4_2. reflexivity.
Qed.
Lemma int_neon_ok q bOut (x : audio A) m : planar 2 (q * 4) bOut x -> length m = 2 * (q * 4) ->
  exists t, int_neon bOut (q * 4) m = Ok t /\ interleaved 2 (q * 4) t x.
Proof.
  intros Hb L. destruct (iw_interleaved q x m L) as (t & E & P). exists t. split; auto. rewrite <- E.
  unfold int_neon. rewrite steps_mult by lia. apply for_flat. intros k m' Hk. cbv zeta.
  change (4 * k) with (0 * (q * 4) + 4 * k) at 1. replace (q * 4 + 4 * k) with (1 * (q * 4) + 4 * k) by lia.
  rewrite !(ld4_ch bOut (q * 4) x) by (auto; lia). cbn [obind]. unfold vst2q, st8. rewrite exec_st4_2.
  rewrite (Nat.add_comm (8 * k) 4). reflexivity.
Qed.

Lemma mod8 j : exists k r, r < 8 /\ j = 8 * k + r.
Proof. exists (j / 8), (j mod 8). split. - apply Nat.mod_upper_bound; lia. - apply Nat.div_mod; lia. Qed.
Lemma mod8_r k r : r < 8 -> (8 * k + r) mod 8 = r.
Proof. intro. rewrite Nat.mul_comm, Nat.add_comm, Nat.mod_add by lia. apply Nat.mod_small; auto. Qed.
End P.
(** What the AVX loop does: frames 2, 3 and 4, 5 of every eight are swapped. *)
Definition avx_frame (j : nat) : nat :=
  match j mod 8 with 2 => j + 2 | 3 => j + 2 | 4 => j - 2 | 5 => j - 2 | _ => j end.
Section P2.
Context {A : Type}.
Definition w8 (i : nat) (v : vec8 A) : list (nat * A) := match v with V8 lo hi => w4 i lo ++ w4 (i + 4) hi end.
Lemma st8_exec m i v : st8 m i v = exec (w8 i v) m.
Proof. destruct v. unfold st8, w8. apply exec_st4_2. Qed.
Lemma int_avx_does q bOut (x : audio A) m : planar 2 (q * 8) bOut x -> length m = 2 * (q * 8) ->
  exists t, int_avx bOut (q * 8) m = Ok t /\ interleaved 2 (q * 8) t (fun c j => x c (avx_frame j)).
Proof.
  intros Hb L.
  set (ws := fun k => w8 (16 * k) (V8 (V4 (x 0 (8 * k)) (x 1 (8 * k)) (x 0 (8 * k + 1)) (x 1 (8 * k + 1)))
                                      (V4 (x 0 (8 * k + 4)) (x 1 (8 * k + 4)) (x 0 (8 * k + 5)) (x 1 (8 * k + 5)))) ++
                      w8 (8 + 16 * k) (V8 (V4 (x 0 (8 * k + 2)) (x 1 (8 * k + 2)) (x 0 (8 * k + 3)) (x 1 (8 * k + 3)))
                                      (V4 (x 0 (8 * k + 6)) (x 1 (8 * k + 6)) (x 0 (8 * k + 7)) (x 1 (8 * k + 7))))).
  assert (AV : forall k r, r < 8 -> avx_frame (8 * k + r) = 8 * k + match r with 2 => 4 | 3 => 5 | 4 => 2 | 5 => 3 | _ => r end).
  { intros k r Hr. unfold avx_frame. rewrite mod8_r by auto.
    do 8 (destruct r as [|r]; [lia|]). lia. }
  destruct (interleaved_exec 2 (q * 8) (fun c j => x c (avx_frame j)) (flat_map ws (seq 0 q)) m L) as (t & E & P).
  - intros i a I. apply in_fm in I as (k & Hk & I). unfold ws, w8, w4 in I. cbn [app In] in I.
    assert (Z : exists c r, c < 2 /\ r < 8 /\ i = 2 * (8 * k + r) + c /\ a = x c (avx_frame (8 * k + r))).
    2:{ destruct Z as (c & r & ? & ? & ? & ?). exists c, (8 * k + r). repeat split; auto. lia. }
    repeat match goal with H : _ \/ _ |- _ => destruct H as [H|H] end; try tauto; injection I as <- <-;
    [ exists 0, 0 | exists 1, 0 | exists 0, 1 | exists 1, 1 | exists 0, 2 | exists 1, 2 | exists 0, 3 | exists 1, 3
    | exists 0, 4 | exists 1, 4 | exists 0, 5 | exists 1, 5 | exists 0, 6 | exists 1, 6 | exists 0, 7 | exists 1, 7 ];
    rewrite AV by lia; cbv iota; rewrite ?(Nat.add_0_r (8 * k)); repeat split; lia.
  - intros c j Hc Hj. apply in_fm_fst. destruct (mod8 j) as (k & r & Hr & ->). exists k. 
    assert (c = 0 \/ c = 1) as [-> | ->] by lia;
    (assert (r = 0 \/ r = 1 \/ r = 2 \/ r = 3 \/ r = 4 \/ r = 5 \/ r = 6 \/ r = 7) as [-> | [-> | [-> | [-> | [-> | [-> | [-> | ->]]]]]]] by lia);
    unfold ws, w8, w4; cbn [app];
    match goal with |- exists a, _ /\ In (?i, a) ?l => 
      let rec find l := lazymatch l with
        | (?i', ?a') :: ?l' => first [ replace i with i' by lia; exists a'; split; [lia|cbn [In]; tauto] | find l' ] end in find l end.
  - exists t. split; auto. rewrite <- E. unfold int_avx. rewrite steps_mult by lia. apply for_flat. intros k m' Hk. cbv zeta.
    unfold ld8.
    replace (8 * k) with (0 * (q * 8) + 4 * (2 * k)) by lia. replace (q * 8 + (0 * (q * 8) + 4 * (2 * k))) with (1 * (q * 8) + 4 * (2 * k)) by lia.
    rewrite !(ld4_ch bOut (q * 8) x) by (auto; lia). cbn [obind].
    replace (0 * (q * 8) + 4 * (2 * k) + 4) with (0 * (q * 8) + 4 * (2 * k + 1)) by lia.
    rewrite !(ld4_ch bOut (q * 8) x) by (auto; lia). cbn [obind].
    replace (1 * (q * 8) + 4 * (2 * k) + 4) with (1 * (q * 8) + 4 * (2 * k + 1)) by lia.
    rewrite !(ld4_ch bOut (q * 8) x) by (auto; lia). cbn [obind].
    unfold ws. rewrite <- exec_app. rewrite <- st8_exec.
    replace (4 * (2 * k + 1)) with (8 * k + 4) by lia. replace (4 * (2 * k)) with (8 * k) by lia.
    rewrite <- !(Nat.add_assoc (8 * k) 4). cbn [Nat.add].
    unfold unpacklo8, unpackhi8, unpacklo, unpackhi. cbn [lane].
    match goal with |- obind (st8 ?a ?b ?c) _ = obind (st8 ?a ?b ?d) _ => destruct (st8 a b c); cbn [obind]; auto end.
    apply st8_exec.
Qed.
End P2.

Section Proc.
Context {A S : Type}.
Variable kernel : S -> list (list A) -> S * list (list A).
Variables (N C D : nat) (d : A).
Hypothesis WS : well_shaped kernel N C D.
Hypothesis N0 : 0 < N.

Lemma ldall_ok ibase imem (x : audio A) n k : (forall c j, c < C -> j < n -> nth_error imem (ibase c + j) = Some (x c j)) ->
  k * N + N <= n -> ldall N C ibase imem (k * N) = Ok (block N C x k).
Proof.
  intros H Hk. unfold ldall, block.
  assert (G : forall l acc, (forall c, In c l -> c < C) ->
     foldM (fun c acc => let! b := ldn imem (ibase c + k * N) N in Ok (acc ++ [b])) l acc =
     Ok (acc ++ map (fun c => map (fun l0 => x c (k * N + l0)) (seq 0 N)) l)).
  { induction l as [|c l IH]; intros acc Hl; cbn [foldM map]. { rewrite app_nil_r; auto. }
    rewrite (ldn_map imem _ N (fun l0 => x c (k * N + l0))).
    - cbn [obind]. rewrite IH by (intros; apply Hl; right; auto). rewrite <- app_assoc. reflexivity.
    - intros l0 Hl0. rewrite <- Nat.add_assoc. apply H; [apply Hl; left; auto|lia]. }
  rewrite G. - reflexivity. - intros c I. apply in_seq in I. lia.
Qed.
Lemma block_shape (x : audio A) k : length (block N C x k) = C /\ Forall (fun b => length b = N) (block N C x k).
Proof.
  unfold block. rewrite map_length, seq_length. split; auto. apply Forall_forall. intros b I.
  apply in_map_iff in I as (c & <- & _). rewrite map_length, seq_length. auto.
Qed.
Definition pw (obase : nat -> nat) (y : audio A) (k : nat) : list (nat * A) :=
  flat_map (fun c => combine (seq (obase c + k * N) N) (map (fun l => y c (k * N + l)) (seq 0 N))) (seq 0 D).
Lemma stall_ok obase s (x : audio A) k m :
  stall N D obase (k * N) (snd (kernel (state_after kernel N C s x k) (block N C x k))) m =
  exec (pw obase (rendered kernel N C d s x) k) m.
Proof.
  unfold stall, pw. apply foldM_flat. intros c m' I. apply in_seq in I. rewrite stn_exec.
  destruct (block_shape x k) as [B1 B2].
  destruct (WS (state_after kernel N C s x k) _ B1 B2) as [W1 W2].
  set (outs := snd (kernel (state_after kernel N C s x k) (block N C x k))) in *.
  assert (Lc : length (nth c outs []) = N).
  { rewrite Forall_forall in W2. apply W2. apply nth_In. lia. }
  rewrite Lc. do 2 f_equal. apply nth_error_ext'. { rewrite map_length, seq_length; auto. }
  intros l Hl. rewrite map_length, seq_length in Hl. rewrite tab_nth by auto. rewrite (nth_error_nth' _ d) by lia. f_equal.
  unfold rendered. destruct (pack_div N k l Hl) as [-> ->]. reflexivity.
Qed.
Lemma process_exec ibase obase imem omem s (x : audio A) n : (forall c j, c < C -> j < n -> nth_error imem (ibase c + j) = Some (x c j)) ->
  process kernel N C D ibase obase imem s omem n =
  let! m := exec (flat_map (pw obase (rendered kernel N C d s x)) (seq 0 (n / N))) omem in
  Ok (state_after kernel N C s x (n / N), m).
Proof.
  intro H. unfold process, for_. 
  assert (G : forall q a m, a + q = n / N ->
    foldM (fun k '(s0, omem0) => let! ins := ldall N C ibase imem (k * N) in
       let '(s', outs) := kernel s0 ins in let! omem' := stall N D obase (k * N) outs omem0 in Ok (s', omem')) (seq a q)
       (state_after kernel N C s x a, m) =
    let! m' := exec (flat_map (pw obase (rendered kernel N C d s x)) (seq a q)) m in Ok (state_after kernel N C s x (n / N), m')).
  { induction q as [|q IH]; intros a m Ha.
    - cbn. rewrite <- Ha, Nat.add_0_r. reflexivity.
    - cbn [seq foldM flat_map]. rewrite <- exec_app.
      assert (a * N + N <= n). { pose proof (Nat.mul_div_le n N). nia. }
      rewrite (ldall_ok ibase imem x n a H) by auto. cbn [obind].
      destruct (kernel (state_after kernel N C s x a) (block N C x a)) as [s' outs] eqn:K.
      pose proof (stall_ok obase s x a m) as ST. rewrite K in ST. cbn [snd] in ST. rewrite ST.
      destruct (exec (pw obase (rendered kernel N C d s x) a) m) as [m1| |]; cbn [obind]; auto.
      replace s' with (state_after kernel N C s x (Datatypes.S a)).
      + apply IH. lia.
      + cbn [state_after]. rewrite K. reflexivity. }
  apply (G (n / N) 0 omem). auto.
Qed.
Lemma combine_seq_in (f : nat -> A) b : forall n p a, In (p, a) (combine (seq b n) (map f (seq 0 n))) <-> exists l, l < n /\ p = b + l /\ a = f l.
Proof.
  intros n p a. rewrite <- (map_id (seq b n)). 
  replace (map (fun x => x) (seq b n)) with (map (fun l => b + l) (seq 0 n)).
  2:{ rewrite map_id. clear. revert b. induction n as [|n IH]; intro b; [reflexivity|]. cbn [seq map]. f_equal; [lia|].
      rewrite <- seq_shift, map_map. rewrite <- (IH (Datatypes.S b)). apply map_ext. intros; lia. }
  assert (E : forall l, combine (map (fun l => b + l) l) (map f l) = map (fun l => (b + l, f l)) l).
  { induction l as [|y l IH]; cbn; [reflexivity|]. f_equal; auto. }
  rewrite E, in_map_iff. split.
  - intros (l & E1 & I). injection E1 as <- <-. apply in_seq in I. exists l. repeat split; auto. lia.
  - intros (l & H & -> & ->). exists l. split; auto. apply in_seq. lia.
Qed.
Lemma pw_planar (y : audio A) q m : length m = D * (q * N) ->
  exists t, exec (flat_map (pw (fun i => i * (q * N)) y) (seq 0 q)) m = Ok t /\ planar D (q * N) t y.
Proof.
  intro L. apply planar_exec; auto.
  - intros i a I. apply in_fm in I as (k & Hk & I). unfold pw in I. apply in_fm in I as (c & Hc & I).
    apply combine_seq_in in I as (l & Hl & -> & ->). exists c, (k * N + l). repeat split; auto; nia.
  - intros c j Hc Hj. apply in_fm_fst. exists (j / N), (y c j).
    assert (j / N < q) by (apply Nat.div_lt_upper_bound; nia). split; auto. unfold pw. apply in_fm. exists c. split; auto.
    apply combine_seq_in. exists (j mod N). pose proof (Nat.div_mod j N ltac:(lia)). pose proof (Nat.mod_upper_bound j N ltac:(lia)).
    split; auto. split. { nia. } f_equal. nia.
Qed.
End Proc.
