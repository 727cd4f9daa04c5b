From Coq Require Import ZifyBool.
From Verif Require Import ConvModel ConvSpec EnvProofs ConvProofs.
From Coq Require Import Lia Ring.

Section Run.
Context {A : Type} (zero one : A) (add mul sub : A -> A -> A) (opp : A -> A).
Hypothesis Rth : ring_theory zero one add mul sub opp (@eq A).
Context (b : build) (m : Z).
Hypothesis Hb : b <> B_AVX.
Notation N := (lanes b).
Notation NN := (Z.to_nat (lanes b)).
Hypothesis Hm0 : N <= m.
Hypothesis Hmm : m mod N = 0.

Record inv (past : list A) (t : table A) : Prop := {
  i_size : t_size t = m; i_head : t_head t = zlen past mod m; i_mod : zlen past mod N = 0;
  i_ring : forall d, 1 <= d <= m -> nth_error (t_mem t) (Z.to_nat ((zlen past - d) mod m)) = Some (Some (sample zero past (zlen past - d))) }.

Lemma sample_app xs ys t : t < zlen xs -> sample zero (xs ++ ys) t = sample zero xs t.
Proof. intros H. unfold sample. destruct (Z.ltb_spec t 0); [reflexivity|]. unfold zlen in H. apply app_nth1. lia. Qed.
Lemma fir_app cs xs ys t : t < zlen xs -> fir zero add mul cs (xs ++ ys) t = fir zero add mul cs xs t.
Proof. intros H. unfold fir. f_equal. apply map_ext. intros k. f_equal. apply sample_app. lia. Qed.

Lemma step past t tbl cs x : inv past t -> holds tbl cs -> zlen cs = m -> zlen x = N ->
  exists t', hv_conv zero add mul b tbl t x = Ok (t', map (fun l => fir zero add mul cs (past ++ x) (zlen past + Z.of_nat l)) (seq 0 NN)) /\ inv (past ++ x) t'.
Proof.
  intros [I1 I2 I3 I4] (Hs & Hc) Hcs Hx. pose proof (lanes_pos b) as LP. set (T := zlen past) in *.
  assert (I4' : forall d, 1 <= d <= m -> nth_error (t_mem t) (Z.to_nat ((T - d) mod m)) = Some (Some (sample zero (past ++ x) (T - d)))).
  { intros d Hd. rewrite I4 by exact Hd. rewrite sample_app; [reflexivity|]. fold T. lia. }
  assert (HM : T mod m < m /\ 0 <= T mod m) by (pose proof (Z.mod_pos_bound T m ltac:(lia)); lia).
  assert (HHN : (T mod m) mod N = 0) by (apply (mod_m b cs m); auto; rewrite Hcs; auto).
  pose proof (mult_gap b (T mod m) m HHN Hmm ltac:(lia)) as HG.
  set (h0 := wrap (T mod m - N) m).
  assert (Hh0 : h0 = (T - N) mod m /\ 0 <= h0 <= m - N /\ h0 mod N = 0 /\ (h0 = m - N \/ h0 = T mod m - N)).
  { unfold h0, wrap. destruct (Z.ltb_spec (T mod m - N) 0) as [L|L].
    - assert (E0 : T mod m = 0). { destruct (Z.eq_dec (T mod m) 0) as [E|E]; [exact E|]. pose proof (mult_gap b 0 (T mod m) ltac:(apply Z.mod_0_l; lia) HHN ltac:(lia)). lia. }
      rewrite E0. replace (0 - N + m) with (m - N) by lia. split; [|split; [lia|split; [apply modN; [exact Hmm|apply Z_mod_same_full]|auto]]].
      rewrite <- Zminus_mod_idemp_l, E0. apply Z.mod_unique with (-1); lia.
    - replace (m <=? T mod m - N) with false by lia. split; [|split; [lia|split; [apply modN; [exact HHN|apply Z_mod_same_full]|auto]]].
      rewrite <- Zminus_mod_idemp_l. symmetry. apply Z.mod_small. lia. }
  destruct Hh0 as (Eh & Bh & Mh & Ch).
  unfold hv_conv. rewrite Hs, Hcs, I1, I2. rewrite lanes_land_low by (auto; lia). cbn [Z.eqb obind]. replace (m <=? m) with true by lia. cbn [obind]. fold T. fold h0.
  assert (Ex : x = blk zero b (past ++ x) (T - 0)).
  { unfold blk. apply list_ext; [rewrite map_length, seq_length; unfold zlen in Hx; lia|]. intros k Hk. unfold zlen in Hx. rewrite nth_error_map_seq by lia. unfold sample. replace (T - 0 + Z.of_nat k <? 0) with false by (unfold T, zlen; lia).
    rewrite (nth_error_nth' x zero) by lia. rewrite app_nth2 by (unfold T, zlen; lia). do 2 f_equal. unfold T, zlen. lia. }
  assert (E0 : repeat zero NN = map (F zero add mul (past ++ x) T cs 0) (seq 0 NN)).
  { unfold F. cbn [Z.to_nat]. change (fun l : nat => sumn zero add (fun k => mul (nth k cs zero) (sample zero (past ++ x) (T + Z.of_nat l - Z.of_nat k))) 0) with (fun _ : nat => zero). generalize 0%nat. induction NN as [|q IH]; intros j; [reflexivity|]. cbn [repeat seq map]. f_equal. apply IH. }
  assert (EL1 : loop1 zero add mul b (t_mem tbl) (t_mem t) (Z.to_nat (h0 + 1)) 0 h0 x (repeat zero NN) =
    Ok (h0 + N, - N, blk zero b (past ++ x) (T - (h0 + N)), map (F zero add mul (past ++ x) T cs (h0 + N)) (seq 0 NN))).
  { transitivity (loop1 zero add mul b (t_mem tbl) (t_mem t) (Z.to_nat (h0 + 1)) 0 h0 (blk zero b (past ++ x) (T - 0)) (map (F zero add mul (past ++ x) T cs 0) (seq 0 NN))); [rewrite <- Ex, <- E0; reflexivity|].
    rewrite (loop1_ok zero one add mul sub opp Rth b Hb (past ++ x) T cs (t_mem tbl) (t_mem t) m Hcs); auto; try lia; try (rewrite Hcs; assumption); try (apply Z.mod_0_l; lia).
    intros _. rewrite Z.sub_0_r. exact Eh. }
  rewrite EL1. cbn [obind].
  assert (EL2 : loop2 zero add mul b (t_mem tbl) (t_mem t) m (Z.to_nat (m - (h0 + N))) (h0 + N) (- N + m) (blk zero b (past ++ x) (T - (h0 + N))) (map (F zero add mul (past ++ x) T cs (h0 + N)) (seq 0 NN)) =
    Ok (map (F zero add mul (past ++ x) T cs m) (seq 0 NN))).
  { rewrite <- Hcs at 1 4. rewrite (loop2_ok zero one add mul sub opp Rth b Hb (past ++ x) T cs (t_mem tbl) (t_mem t) m Hcs); auto; try lia; try (rewrite Hcs; assumption).
    - apply mod_step. exact Mh.
    - intros Q. destruct Ch as [Ch|Ch]; [lia|]. split; [|lia]. rewrite Ch. replace (T - (T mod m - N + N) - N) with (T - T mod m - N) by lia.
       rewrite <- Zminus_mod_idemp_l. replace ((T - T mod m) mod m) with 0; [apply Z.mod_unique with (-1); lia|]. rewrite Zminus_mod, Zmod_mod, Z.sub_diag. symmetry. apply Z.mod_0_l. lia. }
  rewrite EL2.
  cbn [obind].
  assert (HML : m <= zlen (t_mem t)) by (eapply (mem_len zero b (past ++ x) T cs); eauto; lia).
  assert (HLx : zlen (map Some x) = N) by (unfold zlen in *; rewrite map_length; exact Hx).
  rewrite write_ok by lia. cbn [obind]. rewrite HLx. eexists. split.
  - do 2 f_equal. rewrite <- Hcs. unfold F, fir, sumn, zlen. apply map_ext. intros l. rewrite Nat2Z.id. reflexivity.
  - assert (HT' : zlen (past ++ x) = T + N) by (rewrite zlen_app; fold T; lia).
    split; cbn [t_size t_head t_mem]; rewrite ?HT'.
    + reflexivity.
    + unfold wrap. replace (T mod m + N <? 0) with false by lia. rewrite <- Zplus_mod_idemp_l. destruct (Z.leb_spec m (T mod m + N)) as [L|L].
      * replace (T mod m + N) with m by lia. rewrite Z_mod_same_full. lia.
      * symmetry. apply Z.mod_small. lia.
    + apply mod_step. exact I3.
    + intros d Hd. set (p := T mod m) in *. destruct (Z_le_gt_dec d N) as [L|L].
      * assert (EP : (T + N - d) mod m = p + (N - d)) by (replace (T + N - d) with (T + (N - d)) by lia; rewrite <- Zplus_mod_idemp_l; fold p; apply Z.mod_small; lia).
        rewrite EP. unfold zlen in *. rewrite nth_error_app2 by (rewrite firstn_length; lia). rewrite nth_error_app1 by (rewrite firstn_length, map_length; lia).
        rewrite firstn_length. replace (Z.to_nat (p + (N - d)) - Nat.min (Z.to_nat p) (length (t_mem t)))%nat with (Z.to_nat (N - d)) by lia.
        erewrite map_nth_error; [|apply nth_error_nth' with (d := zero); lia]. do 2 f_equal. unfold sample. replace (T + N - d <? 0) with false by (unfold T; lia).
        rewrite app_nth2 by (unfold T; lia). f_equal. unfold T. lia.
      * replace (T + N - d) with (T - (d - N)) by lia. rewrite <- I4' by lia. set (q := (T - (d - N)) mod m). assert (HQ : 0 <= q < m) by (apply Z.mod_pos_bound; lia).
        assert (HQ2 : q < p \/ p + N <= q).
        { unfold q. rewrite <- Zminus_mod_idemp_l. fold p. destruct (Z_le_gt_dec (d - N) p) as [G|G]; [left; rewrite Z.mod_small; lia|right].
          replace ((p - (d - N)) mod m) with (p - (d - N) + m) by (apply Z.mod_unique with (-1); lia). lia. }
        unfold zlen in *. destruct HQ2 as [G|G].
        -- rewrite nth_error_app1 by (rewrite firstn_length; lia). apply (nth_error_firstn_skipn (t_mem t) 0). lia.
        -- rewrite nth_error_app2 by (rewrite firstn_length; lia). rewrite nth_error_app2 by (rewrite firstn_length; lia). rewrite firstn_length. rewrite HLx || rewrite map_length.
           replace (Z.to_nat q - Nat.min (Z.to_nat p) (length (t_mem t)) - length x)%nat with (Z.to_nat (q - (p + N))) by lia.
           rewrite <- (firstn_skipn (Z.to_nat (p + N)) (t_mem t)) at 2. rewrite nth_error_app2 by (rewrite firstn_length; lia). f_equal. rewrite firstn_length. lia.
Qed.

Lemma run_ok : forall l past t, inv past t -> Forall (fun p => holds (fst (fst p)) (snd (fst p)) /\ zlen (snd (fst p)) = m /\ zlen (snd p) = N) l ->
  exists t', conv_run zero add mul b t (map (fun p => (fst (fst p), snd p)) l) =
    Ok (t', map (fun j => map (fun k => fir zero add mul (snd (fst (nth j l (mkTable [] true 0 0 0 0, [], [])))) (past ++ concat (map snd l)) (zlen past + Z.of_nat j * N + Z.of_nat k)) (seq 0 NN)) (seq 0 (length l))).
Proof.
  induction l as [|[[tbl cs] x] l IH]; intros past t HI HF; [exists t; reflexivity|]. inversion HF as [|? ? (H1 & H2 & H3) HF']; subst. cbn [fst snd] in *.
  destruct (step past t tbl cs x HI H1 H2 H3) as (t1 & E1 & HI1). destruct (IH (past ++ x) t1 HI1 HF') as (t2 & E2).
  exists t2. cbn [map fst snd conv_run]. rewrite E1. cbn [obind]. rewrite E2. cbn [obind]. cbn [length seq map concat nth fst snd]. do 3 f_equal.
  - apply map_ext_in. intros k Hk. apply in_seq in Hk. rewrite app_assoc. rewrite (fir_app cs (past ++ x)) by (rewrite zlen_app; lia). f_equal. lia.
  - rewrite <- seq_shift, map_map. apply map_ext. intros j. apply map_ext. intros k. cbn [nth]. rewrite app_assoc. f_equal. rewrite zlen_app. lia.
Qed.
End Run.
