From Coq Require Import ZifyBool.
From Verif Require Import EnvModel EnvSpec EnvProofs.

Section Run.
Context {A : Type} (zero one : A) (add mul sub : A -> A -> A) (opp : A -> A).
Hypothesis Rth : ring_theory zero one add mul sub opp (@eq A).
Context (b : build) (W P : Z) (w : list A).
Notation N := (lanes b).
Hypothesis HWP : N <= P <= W.
Hypothesis HWm : W mod N = 0.
Hypothesis HPm : P mod N = 0.
Hypothesis Hw : zlen w = W.
Notation sq l := (map (fun x => mul x x) l).
Notation rep := (report zero add mul W P w).

Definition level (T : Z) : Z := if T <? W then T else W - P + (T - W) mod P.
Record inv (past : list A) (o : env A) : Prop := {
  i_window : e_window o = W; i_period : e_period o = P; i_weights : e_weights o = w; i_len : zlen (e_buffer o) = 2 * W;
  i_num : e_num o = level (zlen past); i_mod : zlen past mod N = 0;
  i_data : firstn (Z.to_nat (e_num o)) (e_buffer o) = map Some (sq (skipn (Z.to_nat (zlen past - e_num o)) past)) }.

Lemma mult_mod k a : 0 < N -> a mod N = 0 -> k mod N = 0 -> (a + k) mod N = 0.
Proof. intros H H1 H2. rewrite Z.add_mod, H1, H2 by lia. apply Z.mod_0_l. lia. Qed.
Lemma sub_mod k a : 0 < N -> a mod N = 0 -> k mod N = 0 -> (a - k) mod N = 0.
Proof. intros H H1 H2. rewrite Zminus_mod, H1, H2. apply Z.mod_0_l. lia. Qed.
Lemma mod_mod a : 0 < N -> a mod N = 0 -> (a mod P) mod N = 0.
Proof.
  intros H H1. pose proof (lanes_pos b). rewrite (Z.mod_eq a P) by lia. apply sub_mod; auto. rewrite Z.mul_comm, Z.mul_mod, HPm, Z.mul_0_r by lia. apply Z.mod_0_l. lia.
Qed.
Lemma level_range T : 0 <= T -> 0 <= level T < W /\ level T <= T.
Proof. intros H. pose proof (lanes_pos b). unfold level. destruct (Z.ltb_spec T W); [lia|]. pose proof (Z.mod_pos_bound (T - W) P). pose proof (Z.mod_le (T - W) P). lia. Qed.
Lemma level_mod T : T mod N = 0 -> level T mod N = 0.
Proof.
  intros H. pose proof (lanes_pos b) as LP. unfold level. destruct (T <? W); [exact H|]. apply mult_mod; [exact LP|apply sub_mod; auto|apply mod_mod; [exact LP|apply sub_mod; auto]].
Qed.
Lemma mult_step a : 0 < N -> a mod N = 0 -> W mod N = 0 -> a < W -> a + N <= W.
Proof. intros H H1 H2 H3. pose proof (Z.div_mod a N ltac:(lia)). pose proof (Z.div_mod W N ltac:(lia)). assert (a / N < W / N) by (apply Z.mul_lt_mono_pos_l with N; lia). nia. Qed.
(** The level reaches the window exactly when a report is due. *)
Lemma level_step T : 0 <= T -> T mod N = 0 ->
  level T + N <= W /\ ((W <=? T + N) && ((T + N - W) mod P =? 0) = (W <=? level T + N)) /\ (level T + N < W -> level (T + N) = level T + N) /\ (level T + N = W -> level (T + N) = W - P).
Proof.
  intros H0 HM. pose proof (lanes_pos b) as LP. destruct (level_range T H0) as (LR & _). pose proof (mult_step (level T) LP (level_mod T HM) HWm ltac:(lia)) as LE.
  split; [exact LE|]. unfold level in *. destruct (Z.ltb_spec T W) as [L|L].
  - assert (E : T + N <= W) by lia. split; [|split].
    + destruct (Z.leb_spec W (T + N)); [|reflexivity]. replace (T + N - W) with 0 by lia. rewrite Z.mod_0_l by lia. reflexivity.
    + intros Q. replace (T + N <? W) with true by lia. reflexivity.
    + intros Q. replace (T + N <? W) with false by lia. replace (T + N - W) with 0 by lia. rewrite Z.mod_0_l by lia. lia.
  - set (r := (T - W) mod P) in *. assert (RB : 0 <= r < P) by (apply Z.mod_pos_bound; lia).
    assert (RE : (T + N - W) mod P = if r + N =? P then 0 else r + N).
    { replace (T + N - W) with (T - W + N) by lia. rewrite <- Zplus_mod_idemp_l. fold r. destruct (Z.eqb_spec (r + N) P) as [->|NE]; [apply Z_mod_same_full|]. apply Z.mod_small. lia. }
    rewrite RE. split; [|split].
    + replace (W <=? T + N) with true by lia. cbn [andb]. destruct (Z.eqb_spec (r + N) P); lia.
    + intros Q. replace (T + N <? W) with false by lia. destruct (Z.eqb_spec (r + N) P); lia.
    + intros Q. replace (T + N <? W) with false by lia. destruct (Z.eqb_spec (r + N) P); lia.
Qed.

Lemma rep_prefix xs ys t : t <= zlen xs -> rep (xs ++ ys) t = rep xs t.
Proof.
  intros H. unfold report. destruct ((W <=? t) && ((t - W) mod P =? 0)) eqn:E; [|reflexivity]. pose proof (lanes_pos b). do 2 f_equal. unfold zlen in H.
  rewrite skipn_app. rewrite firstn_app_le; [reflexivity|]. rewrite skipn_length. lia.
Qed.

Lemma shift_ok lenient (o : env A) X : e_window o = W -> e_period o = P -> e_num o = W -> zlen (e_buffer o) = 2 * W -> lenient = true \/ W <= 2 * P ->
  firstn (Z.to_nat W) (e_buffer o) = map Some X ->
  exists m, shift_buffer lenient o = Ok (mkEnv W P (W - P) (e_weights o) m) /\ zlen m = 2 * W /\ firstn (Z.to_nat (W - P)) m = map Some (skipn (Z.to_nat P) X).
Proof.
  intros E1 E2 E3 HL HO HX. unfold shift_buffer. rewrite E1, E2, E3. pose proof (lanes_pos b) as LP.
  replace (negb lenient && (P <? W - P)) with false by (destruct HO as [->|HO]; [reflexivity|destruct lenient; cbn; lia]).
  rewrite read_ok by lia. cbn [obind]. set (d := firstn (Z.to_nat (W - P)) (skipn (Z.to_nat P) (e_buffer o))).
  assert (Ed : d = map Some (skipn (Z.to_nat P) X)).
  { unfold d. replace (Z.to_nat (W - P)) with (Z.to_nat W - Z.to_nat P)%nat by lia. rewrite firstn_skipn_split by lia. rewrite HX, skipn_map. reflexivity. }
  assert (Ld : zlen d = W - P) by (unfold d, zlen in *; rewrite firstn_length, skipn_length; lia).
  rewrite write_ok by lia. cbn [obind]. cbn [Z.to_nat firstn app]. rewrite Z.add_0_l, Ld. eexists. split; [reflexivity|]. split.
  - rewrite zlen_app, Ld. unfold zlen in *. rewrite skipn_length. lia.
  - rewrite firstn_app_le by (unfold zlen in Ld; lia). rewrite firstn_all2 by (unfold zlen in Ld; lia). exact Ed.
Qed.

Lemma step lenient past o x : inv past o -> zlen x = N -> lenient = true \/ W <= 2 * P ->
  exists o', sEnv_process zero add mul lenient b o x = Ok (o', rep (past ++ x) (zlen past + N)) /\ inv (past ++ x) o'.
Proof.
  intros [I1 I2 I3 I4 I5 I6 I7] Hx HO. pose proof (lanes_pos b) as LP. assert (HT0 : 0 <= zlen past) by (unfold zlen; lia).
  destruct (level_range (zlen past) HT0) as (LR & LR2). destruct (level_step (zlen past) HT0 I6) as (LE & LS & LN & LW).
  set (T := zlen past) in *. set (L := level T) in *.
  unfold sEnv_process. rewrite I5, I1, I2, I3. rewrite map2_sq.
  assert (Lsq : zlen (map Some (sq x)) = N) by (unfold zlen in *; rewrite !map_length; exact Hx).
  rewrite write_ok by lia. cbn [obind]. rewrite Lsq. set (m := firstn (Z.to_nat L) (e_buffer o) ++ map Some (sq x) ++ skipn (Z.to_nat (L + N)) (e_buffer o)).
  assert (Lf : length (firstn (Z.to_nat L) (e_buffer o)) = Z.to_nat L) by (rewrite firstn_length; unfold zlen in I4; lia).
  assert (Hm : zlen m = 2 * W).
  { unfold m. unfold zlen in *. rewrite !app_length, Lf, skipn_length. lia. }
  assert (Hdata : firstn (Z.to_nat (L + N)) m = map Some (sq (skipn (Z.to_nat (T - L)) (past ++ x)))).
  { unfold m. rewrite app_assoc. rewrite firstn_app_le by (rewrite app_length, Lf; unfold zlen in Lsq; lia). rewrite firstn_all2 by (rewrite app_length, Lf; unfold zlen in Lsq; lia).
    replace (Z.to_nat L) with (Z.to_nat (e_num o)) by (rewrite I5; reflexivity). rewrite I7, I5. fold T L. rewrite skipn_app. rewrite !map_app. f_equal.
    replace (Z.to_nat (T - L) - length past)%nat with O by (unfold T, zlen; lia). reflexivity. }
  assert (HTx : zlen (past ++ x) = T + N) by (rewrite zlen_app; unfold T; lia).
  assert (HMx : (T + N) mod N = 0) by (apply mult_mod; [exact LP|exact I6|apply Z_mod_same_full]).
  cbn [e_window e_num]. unfold report. rewrite LS. destruct (Z.leb_spec W (L + N)) as [Q|Q].
  - assert (EL : L + N = W) by lia. rewrite EL in *. specialize (LW eq_refl).
    assert (HsX : skipn (Z.to_nat (T - L)) (past ++ x) = firstn (Z.to_nat W) (skipn (Z.to_nat (T + N - W)) (past ++ x))).
    { replace (T + N - W) with (T - L) by lia. rewrite firstn_all2; [reflexivity|]. rewrite skipn_length. unfold zlen in *. lia. }
    set (X := sq (skipn (Z.to_nat (T - L)) (past ++ x))) in *.
    assert (LX : length X = Z.to_nat W) by (unfold X; rewrite map_length, skipn_length; unfold zlen in *; lia).
    rewrite (window_sum_ok zero one add mul sub opp Rth b _ X); cbn [e_window e_buffer e_weights]; [|exact LX|lia|exact HWm|rewrite LX; exact Hdata|rewrite LX; unfold zlen in Hw; lia].
    cbn [obind]. destruct (shift_ok lenient (mkEnv W P W w m) X eq_refl eq_refl eq_refl Hm HO Hdata) as (m' & Es & Lm' & Hd'). rewrite Es. cbn [obind].
    eexists. split; [do 3 f_equal|].
    + rewrite (weighted_total zero one add mul sub opp Rth). rewrite <- HsX. reflexivity.
    + split; cbn [e_window e_period e_weights e_buffer e_num]; try reflexivity; try assumption; rewrite ?HTx; try assumption.
      * symmetry. exact LW.
      * rewrite Hd'. unfold X. rewrite skipn_map. rewrite skipn_add. do 3 f_equal. lia.
  - eexists. split; [reflexivity|]. split; cbn [e_window e_period e_weights e_buffer e_num]; try reflexivity; try assumption; rewrite ?HTx; try assumption.
    + symmetry. apply LN. lia.
    + rewrite Hdata. do 4 f_equal. lia.
Qed.

Lemma run_ok lenient : lenient = true \/ W <= 2 * P -> forall blocks past o, inv past o -> Forall (fun x => zlen x = N) blocks ->
  exists o', env_run zero add mul lenient b o blocks = Ok (o', map (fun j => rep (past ++ concat blocks) (zlen past + Z.of_nat (S j) * N)) (seq 0 (length blocks))) /\ inv (past ++ concat blocks) o'.
Proof.
  intros HO. induction blocks as [|x blocks IH]; intros past o HI HF.
  - exists o. cbn [concat]. rewrite app_nil_r. split; [reflexivity|exact HI].
  - inversion HF as [|? ? Hx HF']; subst. destruct (step lenient past o x HI Hx HO) as (o1 & E1 & HI1). destruct (IH (past ++ x) o1 HI1 HF') as (o2 & E2 & HI2).
    exists o2. cbn [concat]. rewrite app_assoc. split; [|exact HI2]. cbn [env_run]. rewrite E1. cbn [obind]. rewrite E2. cbn [obind]. cbn [length seq map]. do 3 f_equal.
    + replace (Z.of_nat 1 * N) with N by lia. symmetry. apply rep_prefix. rewrite zlen_app. lia.
    + rewrite <- seq_shift, map_map. apply map_ext. intros j. f_equal. rewrite zlen_app. lia.
Qed.

(** Overlapping copies. *)
Lemma step_ub past o x : inv past o -> zlen x = N -> 2 * P < W -> level (zlen past) + N = W -> sEnv_process zero add mul false b o x = UB.
Proof.
  intros HI Hx HO HW2. destruct (step true past o x HI Hx (or_introl eq_refl)) as (o' & E & _). destruct HI as [I1 I2 I3 I4 I5 I6 I7].
  unfold sEnv_process in *. rewrite I1, I2, I3, I5 in *. destruct (write_cells (e_buffer o) (level (zlen past)) (map Some (map2 mul x x))) as [m| |]; try discriminate.
  cbn [obind e_window e_num] in *. replace (W <=? level (zlen past) + N) with true in * by lia.
  destruct (window_sum zero add mul b _) as [s| |]; try discriminate. cbn [obind]. unfold shift_buffer at 1. cbn [e_num e_period negb]. replace (P <? level (zlen past) + N - P) with true by lia. reflexivity.
Qed.
Lemma run_ub : 2 * P < W -> forall blocks past o, inv past o -> Forall (fun x => zlen x = N) blocks -> zlen past < W -> W <= zlen past + zlen (concat blocks) ->
  env_run zero add mul false b o blocks = UB.
Proof.
  intros HO. pose proof (lanes_pos b) as LP. induction blocks as [|x blocks IH]; intros past o HI HF H1 H2; [cbn in H2; unfold zlen in H2; cbn in H2; unfold zlen in H1; lia|].
  inversion HF as [|? ? Hx HF']; subst. cbn [env_run].
  assert (HL : level (zlen past) = zlen past) by (unfold level; replace (zlen past <? W) with true by lia; reflexivity).
  destruct (Z.eq_dec (zlen past + N) W) as [E|NE].
  - rewrite (step_ub past o x HI Hx HO) by lia. reflexivity.
  - destruct (step true past o x HI Hx (or_introl eq_refl)) as (o1 & E1 & HI1).
    assert (H0 : 0 <= zlen past) by (unfold zlen; lia). destruct (level_step (zlen past) H0 (i_mod _ _ HI)) as (LE & _).
    assert (E2 : sEnv_process zero add mul false b o x = Ok (o1, rep (past ++ x) (zlen past + N))).
    { rewrite <- E1. unfold sEnv_process. destruct (write_cells (e_buffer o) (e_num o) (map Some (map2 mul x x))) as [m| |]; try reflexivity. cbn [obind e_window e_num].
      rewrite (i_window _ _ HI), (i_num _ _ HI). replace (W <=? level (zlen past) + N) with false by lia. reflexivity. }
    rewrite E2. cbn [obind]. rewrite IH with (past := past ++ x); [reflexivity|exact HI1|exact HF'| |].
    + rewrite zlen_app. lia.
    + cbn [concat] in H2. rewrite !zlen_app in *. lia.
Qed.
End Run.
