(** Proofs about the parameters of a DPF plugin. *)
From Verif Require Import ParamSpec PipeProofs PipeProofs2.
From Coq Require Import List Lia ZArith.
Import ListNotations.
Local Open Scope list_scope.
Open Scope Z_scope.

(** ** The queue while nobody reads *)
Definition filling (n k : Z) (s : pipe) : Prop :=
  len s = n /\ rh s = 0 /\ wh s = 36 * k /\ rem s = n - 36 * k /\ pp s = P_idle.
Lemma store8_ok s a v : 0 <= a -> a + 1 <= len s -> store8 s a v = Ok (set_buf s (upd (buf s) a v)).
Proof. intros. unfold store8, in_buf. destruct (Z.leb_spec 0 a); [| lia]. destruct (Z.leb_spec (a + 1) (len s)); [| lia]. reflexivity. Qed.
Lemma store32_ok s a v : 0 <= a -> a + 4 <= len s -> store32 s a v = Ok (set_buf s (wr32 (buf s) a v)).
Proof. intros. unfold store32, in_buf. destruct (Z.leb_spec 0 a); [| lia]. destruct (Z.leb_spec (a + 4) (len s)); [| lia]. reflexivity. Qed.
Lemma idle_prods k : forall s, pp s = P_idle -> run s (repeat Prod k) = Ok s.
Proof. induction k as [| k IH]; intros s H; [reflexivity |]. cbn [repeat run step]. unfold pstep. rewrite H. cbn [obind]. apply IH, H. Qed.
Lemma fill_all r m : forall i s, pp s = P_fill r i -> (i + m = length r)%nat -> 0 <= wh s -> wh s + 4 + zlen r <= len s ->
  exists b, run s (repeat Prod (S m)) = Ok (set_p (set_buf s b) (P_prod r)).
Proof.
  induction m as [| m IH]; intros i s Hp Hi Hw Hl.
  - exists (buf s). cbn [repeat run step]. unfold pstep. rewrite Hp.
    replace (nth_error r i) with (@None Z) by (symmetry; apply nth_error_None; lia). cbn [obind]. destruct s. reflexivity.
  - change (repeat Prod (S (S m))) with (Prod :: repeat Prod (S m)). cbn [run step]. unfold pstep at 1. rewrite Hp.
    destruct (nth_error r i) as [c |] eqn:E; [| apply nth_error_None in E; lia].
    assert (zlen r = Z.of_nat (length r)) by reflexivity.
    rewrite store8_ok by lia. cbn [obind].
    destruct (IH (S i) (set_p (set_buf s (upd (buf s) (wh s + 4 + Z.of_nat i) c)) (P_fill r (S i))) eq_refl ltac:(lia) Hw Hl) as [b Hb].
    exists b. cbn [obind] in Hb. exact Hb.
Qed.
Lemma send_fits n k s r : filling n k s -> zlen r = 32 -> 0 <= k -> 36 * k + 40 <= n -> n < 4294967296 ->
  exists s', run s (Send r :: repeat Prod (length r + 8)) = Ok s' /\ filling n (k + 1) s' /\ sent s' = sent s ++ [r] /\ refused s' = refused s /\ recv s' = recv s.
Proof.
  intros (H1 & H2 & H3 & H4 & H5) Hr Hk Hn Hb. assert (L : Z.of_nat (length r) = 32) by exact Hr.
  replace (length r + 8)%nat with (S (S (S (length r) + (1 + (1 + 3)))))%nat by lia.
  cbn [repeat run step]. rewrite H5. cbn [obind run step].
  unfold pstep at 1. cbn [set_p pp obind]. unfold pstep at 1. cbn [set_p pp rh wh rem len].
  rewrite H2, H3, H4, Hr. change (u32 (32 + 8)) with 40.
  destruct (Z.leb_spec 40 (n - 36 * k)); [| lia]. destruct (Z.ltb_spec (36 * k) 0); [lia |]. cbn [andb obind].
  rewrite repeat_app, run_app.
  set (s1 := set_p _ (P_fill r 0)).
  destruct (fill_all r (length r) 0 s1 eq_refl eq_refl) as [b Hf]; [cbn; lia | unfold s1; cbn; rewrite Hr; lia |].
  rewrite Hf. cbn [obind]. rewrite repeat_app, run_app. cbn [repeat run step]. unfold pstep at 1. cbn [set_p set_buf pp].
  cbn [rem set_p set_buf s1]. rewrite Hr, H4. change (u32 (32 + 8)) with 40. destruct (Z.leb_spec 40 (n - 36 * k)); [| lia].
  cbn [set_w wh set_p set_buf s1]. rewrite H3.
  rewrite store32_ok; [| lia | cbn [set_w set_p set_buf len s1]; lia]. cbn [obind].
  rewrite repeat_app, run_app. cbn [repeat run step]. unfold pstep at 1. cbn [set_p set_buf pp].
  rewrite store32_ok; [| lia | cbn [set_w set_p set_buf len s1]; lia]. cbn [obind].
  unfold pstep. cbn [pp log_sent set_p set_buf set_w obind].
  eexists. split; [reflexivity |]. unfold filling. cbn [len rh wh rem pp sent refused recv log_sent set_p set_buf set_w s1]. repeat split; try lia. unfold u32. rewrite Z.mod_small by lia. lia.
Qed.
Lemma send_full n k s r : filling n k s -> zlen r = 32 -> 0 <= k -> n < 36 * k + 40 -> 40 <= n ->
  exists s', run s (Send r :: repeat Prod (length r + 8)) = Ok s' /\ filling n k s' /\ sent s' = sent s /\ refused s' = refused s ++ [r] /\ recv s' = recv s.
Proof.
  intros (H1 & H2 & H3 & H4 & H5) Hr Hk Hn Hb.
  replace (length r + 8)%nat with (S (S (length r + 6)))%nat by lia.
  cbn [repeat run step]. rewrite H5. cbn [obind run step].
  unfold pstep at 1. cbn [set_p pp obind]. unfold pstep at 1. cbn [set_p pp rh wh rem len].
  rewrite H1, H2, H3, H4, Hr. change (u32 (32 + 8)) with 40.
  destruct (Z.leb_spec 40 (n - 36 * k)); [lia |]. destruct (Z.leb_spec 40 n); [| lia]. destruct (Z.ltb_spec (36 * k) 0); [lia |]. cbn [orb].
  change (0 <? 40) with true. cbn [obind]. rewrite idle_prods by reflexivity. eexists. split; [reflexivity |]. unfold filling. cbn [len rh wh rem pp sent refused recv log_refused set_p set_buf set_w]. repeat split; try assumption; lia.
Qed.
Lemma init_filling junk n : 4 <= n < 4294967296 -> exists s, hLp_init junk n = Ok s /\ filling n 0 s /\ sent s = [] /\ refused s = [] /\ recv s = [].
Proof.
  intros H. unfold hLp_init. destruct (Z.ltb_spec 0 n); [| lia]. rewrite store32_ok by (cbn; lia). eexists. split; [reflexivity |]. unfold filling. cbn. repeat split; lia.
Qed.

(** ** Values *)
Lemma set_value_length i v l : length (set_value i v l) = length l.
Proof. revert i. induction l as [| x l IH]; intros [| i]; cbn; auto. Qed.
Lemma set_value_nth i v l j : (i < length l)%nat -> nth_error (set_value i v l) j = if Nat.eqb j i then Some v else nth_error l j.
Proof.
  revert i j. induction l as [| x l IH]; intros i j H; [cbn in H; lia |]. destruct i, j; cbn; try reflexivity. apply IH. cbn in H. lia.
Qed.
Lemma set_value_same i l d : (i < length l)%nat -> set_value i (nth i l d) l = l.
Proof. revert i. induction l as [| x l IH]; intros [| i] H; cbn in *; try lia; [reflexivity |]. f_equal. apply IH. lia. Qed.
Lemma index_hash_bound h l j : index_hash h l = Some j -> (j < length l)%nat.
Proof.
  revert j. induction l as [| x l IH]; intros j H; cbn in H; [discriminate |]. destruct (x =? h); [inversion H; cbn; lia |].
  destruct (index_hash h l) as [k |]; cbn in H; [| discriminate]. inversion H. subst. specialize (IH k eq_refl). cbn. lia.
Qed.

Section Plugin.
Variables (ins outs : list Z) (kb : Z) (record : Z -> f32 -> list Z).
Hypothesis size : forall h v, zlen (record h v) = 32.
Hypothesis kbs : 1 <= kb <= 4000000.
Let good_record h v : good (record h v).
Proof. unfold good. rewrite (size h v). repeat split; lia || reflexivity. Qed.

Definition all_good (p : plugin) : Prop := exists w f bk, Inv (g_queue p) w f bk.
Lemma run_good s ls w f bk : Inv s w f bk -> Forall good_label ls -> exists s', run s ls = Ok s' /\ exists w' f' bk', Inv s' w' f' bk'.
Proof. intros A B. destruct (run_inv ls s w f bk A B) as (s' & w' & f' & bk' & E & HI). eauto 6. Qed.
Lemma set_good p i v : all_good p -> exists p', set_parameter ins record p i v = Ok p' /\ all_good p' /\
  g_values p' = if Nat.ltb i (length ins) then set_value i v (g_values p) else g_values p.
Proof.
  intros (w & f & bk & HI). unfold set_parameter. destruct (nth_error ins i) as [h |] eqn:E.
  - assert (L : (i < length ins)%nat) by (apply nth_error_Some; congruence). apply Nat.ltb_lt in L. rewrite L.
    unfold send_float. destruct (run_good (g_queue p) (Send (record h v) :: repeat Prod (length (record h v) + 8)) w f bk HI) as (s' & R & HI').
    { constructor; [apply good_record |]. apply Forall_forall. intros x Hx. apply repeat_spec in Hx. subst x. exact I. }
    rewrite R. cbn [obind]. eexists. split; [reflexivity |]. split; [exact HI' | reflexivity].
  - apply nth_error_None in E. destruct (Nat.ltb_spec i (length ins)); [lia |]. exists p. split; [reflexivity |]. split; [unfold all_good; eauto | reflexivity].
Qed.
Lemma send_all_good n : forall i p, all_good p -> exists p', send_all_from ins record i n p = Ok p' /\ all_good p' /\
  ((i + n <= length (g_values p))%nat -> g_values p' = g_values p).
Proof.
  induction n as [| n IH]; intros i p H; cbn [send_all_from]; [exists p; auto |].
  destruct (set_good p i (nth i (g_values p) fzero) H) as (p1 & E1 & H1 & V1). rewrite E1. cbn [obind].
  destruct (IH (S i) p1 H1) as (p2 & E2 & H2 & V2). exists p2. split; [exact E2 |]. split; [exact H2 |]. intros L.
  assert (V : g_values p1 = g_values p). { rewrite V1. destruct (Nat.ltb i (length ins)); [| reflexivity]. apply set_value_same. lia. }
  rewrite V2, V; [reflexivity |]. rewrite V. lia.
Qed.
Lemma context_good junk vs : length vs = (length ins + length outs)%nat -> exists p, new_context ins outs kb record junk vs = Ok p /\ all_good p /\ g_values p = vs.
Proof.
  intros L. unfold new_context. destruct (init_inv junk (kb * 1024) ltac:(lia)) as (s & E & HI & _). rewrite E. cbn [obind].
  assert (G : all_good (mkPlugin vs s)) by (unfold all_good; cbn; eauto).
  destruct ins as [| h t] eqn:Ei; [exists (mkPlugin vs s); auto |]. rewrite <- Ei in *.
  destruct (send_all_good (length ins + length outs) 0 _ G) as (p & E1 & G1 & V1). exists p. split; [exact E1 |]. split; [exact G1 |]. apply V1. cbn. lia.
Qed.
Lemma happen_good p e : all_good p -> length (g_values p) = (length ins + length outs)%nat -> exists p', happen ins outs kb record p e = Ok p' /\ all_good p' /\
  length (g_values p') = (length ins + length outs)%nat /\
  forall i d, nth_error (g_values p) i = Some d -> nth_error (g_values p') i = Some (match hits ins outs i e with Some v => v | None => d end).
Proof.
  intros G L. destruct e as [j v | h v | k | junk]; cbn [happen hits].
  - destruct (set_good p j v G) as (p' & E & G' & V). exists p'. split; [exact E |]. split; [exact G' |]. rewrite V.
    destruct (Nat.ltb_spec j (length ins)).
    + split; [rewrite set_value_length; exact L |]. intros i d Hd. rewrite set_value_nth by lia. destruct (Nat.eqb_spec i j); [subst i | exact Hd].
      destruct (Nat.ltb_spec j (length ins)); [reflexivity | lia].
    + split; [exact L |]. intros i d Hd. destruct (Nat.eqb_spec i j); [subst i | exact Hd]. destruct (Nat.ltb_spec j (length ins)); [lia | exact Hd].
  - unfold set_output. destruct (index_hash h outs) as [j |] eqn:E.
    + pose proof (index_hash_bound _ _ _ E). eexists. split; [reflexivity |]. split; [exact G |]. cbn [g_values]. split; [rewrite set_value_length; exact L |].
      intros i d Hd. rewrite set_value_nth by lia. destruct (Nat.eqb i (length ins + j)); [reflexivity | exact Hd].
    + exists p. auto.
  - destruct G as (w & f & bk & HI). destruct (run_good (g_queue p) (repeat Cons k) w f bk HI) as (s' & R & HI').
    { apply Forall_forall. intros x Hx. apply repeat_spec in Hx. subst x. exact I. }
    rewrite R. cbn [obind]. eexists. split; [reflexivity |]. split; [exact HI' |]. cbn. auto.
  - destruct (context_good junk (g_values p) L) as (p' & E & G' & V). exists p'. rewrite V. auto.
Qed.
Lemma happen_all_good l : forall p, all_good p -> length (g_values p) = (length ins + length outs)%nat -> exists p', happen_all ins outs kb record p l = Ok p' /\
  forall i d, nth_error (g_values p) i = Some d -> nth_error (g_values p') i = Some (last_value ins outs i d l).
Proof.
  induction l as [| e l IH]; intros p G L; cbn [happen_all last_value]; [exists p; auto |].
  destruct (happen_good p e G L) as (p1 & E1 & G1 & L1 & V1). rewrite E1. cbn [obind]. destruct (IH p1 G1 L1) as (p2 & E2 & V2).
  exists p2. split; [exact E2 |]. intros i d Hd. apply V2, V1, Hd.
Qed.

(** ** A new context gets all values *)
Lemma set_fits p i v h k : filling (kb * 1024) k (g_queue p) -> nth_error ins i = Some h -> 0 <= k -> 36 * k + 40 <= kb * 1024 ->
  exists p', set_parameter ins record p i v = Ok p' /\ g_values p' = set_value i v (g_values p) /\ filling (kb * 1024) (k + 1) (g_queue p') /\
    sent (g_queue p') = sent (g_queue p) ++ [record h v] /\ refused (g_queue p') = refused (g_queue p).
Proof.
  intros F E Hk Hn. unfold set_parameter, send_float. rewrite E.
  destruct (send_fits _ _ _ (record h v) F (size h v) Hk Hn ltac:(lia)) as (s' & R & F' & S1 & S2 & _). rewrite R. cbn [obind]. eexists. split; [reflexivity |]. cbn. auto.
Qed.
Lemma set_refused p i v h k : filling (kb * 1024) k (g_queue p) -> nth_error ins i = Some h -> 0 <= k -> kb * 1024 < 36 * k + 40 ->
  exists p', set_parameter ins record p i v = Ok p' /\ g_values p' = set_value i v (g_values p) /\ filling (kb * 1024) k (g_queue p') /\
    sent (g_queue p') = sent (g_queue p) /\ refused (g_queue p') = refused (g_queue p) ++ [record h v].
Proof.
  intros F E Hk Hn. unfold set_parameter, send_float. rewrite E.
  destruct (send_full _ _ _ (record h v) F (size h v) Hk Hn ltac:(lia)) as (s' & R & F' & S1 & S2 & _). rewrite R. cbn [obind]. eexists. split; [reflexivity |]. cbn. auto.
Qed.
Lemma send_outs n : forall i p, (length ins <= i)%nat -> send_all_from ins record i n p = Ok p.
Proof.
  induction n as [| n IH]; intros i p H; cbn [send_all_from]; [reflexivity |]. unfold set_parameter.
  replace (nth_error ins i) with (@None Z) by (symmetry; apply nth_error_None; lia). cbn [obind]. apply IH. lia.
Qed.
Lemma send_ins m : forall i p, (i + m = length ins)%nat -> (length ins <= length (g_values p))%nat -> filling (kb * 1024) (Z.of_nat i) (g_queue p) ->
  36 * zlen ins + 4 <= kb * 1024 -> forall n, exists p', send_all_from ins record i (m + n) p = Ok p' /\ g_values p' = g_values p /\ filling (kb * 1024) (zlen ins) (g_queue p') /\
    sent (g_queue p') = sent (g_queue p) ++ map (fun x => record (fst x) (snd x)) (combine (skipn i ins) (skipn i (g_values p))) /\ refused (g_queue p') = refused (g_queue p).
Proof.
  induction m as [| m IH]; intros i p Hi Hl F Hn n.
  - cbn [Nat.add]. rewrite send_outs by lia. exists p. split; [reflexivity |]. split; [reflexivity |]. split; [replace (zlen ins) with (Z.of_nat i) by (unfold zlen; lia); exact F |].
    rewrite skipn_all2 by lia. cbn [combine map]. rewrite app_nil_r. auto.
  - cbn [Nat.add send_all_from]. destruct (nth_error ins i) as [h |] eqn:E; [| apply nth_error_None in E; lia].
    destruct (set_fits p i (nth i (g_values p) fzero) h (Z.of_nat i) F E ltac:(lia)) as (p1 & E1 & V1 & F1 & S1 & R1); [unfold zlen in Hn; lia |].
    rewrite set_value_same in V1 by lia. rewrite E1. cbn [obind].
    destruct (IH (S i) p1 ltac:(lia) ltac:(rewrite V1; exact Hl)) with (n := n) as (p2 & E2 & V2 & F2 & S2 & R2); [replace (Z.of_nat (S i)) with (Z.of_nat i + 1) by lia; exact F1 | exact Hn |].
    exists p2. split; [exact E2 |]. split; [congruence |]. split; [exact F2 |]. split; [| congruence]. rewrite S2, S1, V1, <- app_assoc. f_equal.
    assert (A : skipn i ins = h :: skipn (S i) ins).
    { clear - E. revert i E. induction ins as [| x l IHl]; intros [| i] E; cbn in *; try discriminate; [congruence |]. apply IHl, E. }
    assert (B : skipn i (g_values p) = nth i (g_values p) fzero :: skipn (S i) (g_values p)).
    { assert (Li : (i < length (g_values p))%nat) by lia. clear - Li. revert i Li. induction (g_values p) as [| x l IHl]; intros [| i] Li; cbn in *; try lia; [reflexivity |]. apply IHl. lia. }
    rewrite A, B. reflexivity.
Qed.
Lemma context_told junk vs : length vs = (length ins + length outs)%nat -> 36 * zlen ins + 4 <= kb * 1024 ->
  exists p, new_context ins outs kb record junk vs = Ok p /\ filling (kb * 1024) (zlen ins) (g_queue p) /\ g_values p = vs /\
    sent (g_queue p) = map (fun x => record (fst x) (snd x)) (combine ins vs) /\ refused (g_queue p) = [] .
Proof.
  intros L Hn. unfold new_context. destruct (init_filling junk (kb * 1024) ltac:(lia)) as (s & E & F & S1 & R1 & _). rewrite E. cbn [obind].
  destruct ins as [| h t] eqn:Ei; [exists (mkPlugin vs s); cbn; auto |]. rewrite <- Ei in *.
  destruct (send_ins (length ins) 0 (mkPlugin vs s) eq_refl ltac:(cbn; lia) F Hn (length outs)) as (p & E1 & V1 & F1 & S2 & R2).
  exists p. split; [exact E1 |]. split; [exact F1 |]. split; [exact V1 |]. cbn [g_queue g_values skipn] in *. rewrite S2, S1, R2, R1. auto.
Qed.
(** ** Setting one parameter again and again *)
Lemma sets_fill h l : nth_error ins 0 = Some h -> forall k p, (0 < length (g_values p))%nat -> filling (kb * 1024) k (g_queue p) -> 0 <= k ->
  exists p', happen_all ins outs kb record p (map (SetParam 0) l) = Ok p' /\ length (g_values p') = length (g_values p) /\
    exists k', k <= k' /\ filling (kb * 1024) k' (g_queue p') /\ (k' = k + zlen l \/ kb * 1024 < 36 * k' + 40).
Proof.
  intros E. induction l as [| v l IH]; intros k p Hl F Hk; cbn [map happen_all].
  - exists p. split; [reflexivity |]. split; [reflexivity |]. exists k. split; [lia |]. split; [exact F |]. left. cbn. lia.
  - cbn [happen]. destruct (Z_le_gt_dec (36 * k + 40) (kb * 1024)) as [A | A].
    + destruct (set_fits p 0 v h k F E Hk A) as (p1 & E1 & V1 & F1 & _). rewrite E1. cbn [obind].
      destruct (IH (k + 1) p1 ltac:(rewrite V1, set_value_length; exact Hl) F1 ltac:(lia)) as (p2 & E2 & L2 & k' & B1 & B2 & B3).
      exists p2. split; [exact E2 |]. split; [rewrite L2, V1, set_value_length; reflexivity |]. exists k'. split; [lia |]. split; [exact B2 |].
      destruct B3 as [B3 | B3]; [left; unfold zlen in *; cbn [length]; lia | right; exact B3].
    + destruct (set_refused p 0 v h k F E Hk ltac:(lia)) as (p1 & E1 & V1 & F1 & _). rewrite E1. cbn [obind].
      destruct (IH k p1 ltac:(rewrite V1, set_value_length; exact Hl) F1 Hk) as (p2 & E2 & L2 & k' & B1 & B2 & B3).
      exists p2. split; [exact E2 |]. split; [rewrite L2, V1, set_value_length; reflexivity |]. exists k'. split; [exact B1 |]. split; [exact B2 |].
      right. destruct B3; lia.
Qed.
Lemma happen_all_length l : forall p p', all_good p -> length (g_values p) = (length ins + length outs)%nat -> happen_all ins outs kb record p l = Ok p' ->
  length (g_values p') = (length ins + length outs)%nat.
Proof.
  induction l as [| e l IH]; intros p p' G L E; cbn [happen_all] in E; [congruence |].
  destruct (happen_good p e G L) as (p1 & E1 & G1 & L1 & V1). rewrite E1 in E. cbn [obind] in E. exact (IH p1 p' G1 L1 E).
Qed.
Lemma happen_all_app l1 l2 : forall p, happen_all ins outs kb record p (l1 ++ l2) = let! q := happen_all ins outs kb record p l1 in happen_all ins outs kb record q l2.
Proof. induction l1 as [| e l1 IH]; intros p; cbn [app happen_all obind]; [reflexivity |]. destruct (happen ins outs kb record p e); cbn [obind]; auto. Qed.
End Plugin.

Lemma combine_firstn_l {A B} (l : list A) : forall m : list B, combine l (firstn (length l) m) = combine l m.
Proof. induction l as [| x l IH]; intros [| y m]; cbn; [reflexivity .. |]. rewrite IH. reflexivity. Qed.
Lemma nth_error_firstn_lt {A} n : forall (l : list A) i, (i < n)%nat -> nth_error (firstn n l) i = nth_error l i.
Proof. induction n as [| n IH]; intros [| x l] [| i] H; cbn; try reflexivity; try lia. apply IH. lia. Qed.
