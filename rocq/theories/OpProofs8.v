(** pd2hv: all operators. *)
From Verif Require Import RewriteModel OpModel OpSpec OpProofs OpProofs2 OpProofs3 OpProofs4 OpProofs5 OpProofs6 OpProofs7.
From Coq Require Import Permutation.

Lemma homogeneous cs : (forall c c', In c cs -> In c' cs -> c.(c_sig) = c'.(c_sig)) -> fmt_of cs <> FMixed.
Proof.
  intros H F. unfold fmt_of in F. destruct (existsb c_sig cs) eqn:E1, (existsb (fun c => negb (c_sig c)) cs) eqn:E2; try discriminate.
  apply existsb_exists in E1 as (c & Hc & S). apply existsb_exists in E2 as (c' & Hc' & S'). rewrite (H c' c Hc' Hc), S in S'. discriminate.
Qed.
Lemma fmt_left cs : fmt_of cs <> FMixed -> existsb c_sig cs = true -> fmt_of cs = FSig.
Proof. unfold fmt_of. destruct (existsb c_sig cs), (existsb (fun c => negb (c_sig c)) cs); congruence. Qed.

Section Validate.
Context {K : Type} (kzero : K) (is_zero is_one is_minus_one : K -> bool).
Notation validate_bin := (validate_bin kzero).
Notation validate_all := (validate_all kzero).
Notation reduced_to := (reduced_to kzero is_zero is_one is_minus_one).
Notation no_zero_factor := (no_zero_factor kzero is_zero).

Record vstep (l l1 : lang K) : Prop := {
  vs_red : reduced_to l l1;
  vs_lt : forall q, q < ln l -> lt l1 q = lt l q;
  vs_new : forall q, ln l <= q -> forall b a, lt l1 q <> LBin b a;
  vs_pd : pd_ok l -> pd_ok l1;
  vs_nz : no_zero_factor l -> no_zero_factor l1;
  vs_sig : forall q, q < ln l -> existsb c_sig (at_inlet (lp l) q 0) = true -> existsb c_sig (at_inlet (lp l1) q 0) = true }.
Lemma vstep_refl l : lang_ok l -> vstep l l.
Proof.
  intros OK. split; auto.
  - now apply reduced_refl.
  - intros q L b a E. destruct (lo_free l OK q L). congruence.
Qed.
Lemma reduced_trans l l1 l2 : (forall q, q < ln l -> ~ is_lang (lt l q) -> ~ is_lang (lt l1 q)) -> reduced_to l l1 -> reduced_to l1 l2 -> reduced_to l l2.
Proof.
  intros NL R1 R2. pose proof (rt_ln _ _ _ _ _ _ R1). split.
  - apply R2.
  - pose proof (rt_ln _ _ _ _ _ _ R2). lia.
  - intros q L N. rewrite (rt_lt _ _ _ _ _ _ R2); [now apply (rt_lt _ _ _ _ _ _ R1) | lia | auto].
  - intros q L N. eapply same_kind_trans; [now apply (rt_kind _ _ _ _ _ _ R1) | apply (rt_kind _ _ _ _ _ _ R2); [lia | auto]].
  - intros q sg ins outs ch X. eapply (rt_dac _ _ _ _ _ _ R1), (rt_dac _ _ _ _ _ _ R2), X.
  - intros A op neg zero cst inp other trace LA V2 M2.
    destruct (rt_sem _ _ _ _ _ _ R2 A op neg zero cst inp other trace LA V2 M2) as (V1 & M1 & H1).
    destruct (rt_sem _ _ _ _ _ _ R1 A op neg zero cst inp other trace LA V1 M1) as (V & M & H0).
    exists V. split; [exact M | ]. intros q L N. destruct (H0 q L N) as [J I]. destruct (H1 q ltac:(lia) (NL q L N)) as [J1 I1]. split.
    + intros j. now rewrite J.
    + intros i. etransitivity; [apply I | apply I1].
Qed.
Lemma vstep_trans l l1 l2 : vstep l l1 -> vstep l1 l2 -> vstep l l2.
Proof.
  intros S1 S2. pose proof (rt_ln _ _ _ _ _ _ (vs_red _ _ S1)) as L01. split.
  - apply (reduced_trans l l1 l2); [ | apply S1 | apply S2]. intros q L N. now rewrite (vs_lt _ _ S1).
  - intros q L. rewrite (vs_lt _ _ S2) by lia. now apply (vs_lt _ _ S1).
  - intros q L b a E. destruct (Nat.lt_ge_cases q (ln l1)) as [L1 | L1].
    + rewrite (vs_lt _ _ S2) in E by exact L1. now apply (vs_new _ _ S1 q L b a).
    + now apply (vs_new _ _ S2 q L1 b a).
  - intros P. apply S2. now apply S1.
  - intros P. apply S2. now apply S1.
  - intros q L X. apply (vs_sig _ _ S2); [lia | ]. now apply (vs_sig _ _ S1).
Qed.
Lemma to_signal_vstep G o i b a l : lang_ok l -> lt l o = LBin b a -> i <= 1 -> (i = 1 -> a = None) ->
  (forall c, In c (at_inlet (lp l) o i) -> c.(c_sig) = false) -> vstep l (to_signal kzero G o i l).
Proof.
  intros OK E Hi Ha Hctl. set (l1 := to_signal kzero G o i l). assert (Lo : o < ln l) by (apply (lang_lt l OK); now rewrite E).
  assert (NB : forall q, ln l <= q -> forall b a, lt l1 q <> LBin b a).
  { intros q L b' a' X. cbn in X. destruct (Nat.eqb q (ln l)); [discriminate | ]. destruct (lo_free l OK q L). congruence. }
  assert (Hlt : forall q, q < ln l -> lt l1 q = lt l q) by (intros; now apply (ts_lt kzero G o i b a l OK E Hi)).
  assert (HB : forall q b a, lt l1 q = LBin b a -> q < ln l /\ lt l q = LBin b a).
  { intros q b' a' X. destruct (Nat.lt_ge_cases q (ln l)) as [L | L]; [ | exfalso; now apply (NB q L b' a')]. rewrite Hlt in X by exact L. auto. }
  split; auto.
  - split.
    + now apply (ts_ok kzero G o i b a l).
    + unfold l1, to_signal. cbn [ln]. lia.
    + intros q L _. now apply Hlt.
    + intros q L _. now apply (ts_kind kzero G o i b a l OK E Hi).
    + intros q sg ins outs ch X. cbn in X. destruct (Nat.eqb q (ln l)); [discriminate | ]. destruct (Nat.eqb_spec q G) as [-> | ]; [ | exact X].
      destruct (kind_of (lp l) G); auto; discriminate.
    + intros A op neg zero cst inp other trace LA V1 M.
      destruct (ts_sem kzero G o i b a l OK E Hi Hctl op neg zero cst inp other trace V1 Ha (la_zero _ _ _ _ _ _ _ _ LA) M) as (V & M0 & Hv & Hp).
      exists V. split; [exact M0 | ]. intros q L N. assert (Q : q <> o) by (intros ->; rewrite E in N; apply N; exact I). split.
      * intros j. now apply Hv.
      * intros j. now apply Hp.
  - intros P q b' a' X. destruct (HB q b' a' X) as [L X']. destruct (P q b' a' X') as (P0 & P1 & P2).
    assert (Hj : forall j, (forall c c', In c (at_inlet (lp l) q j) -> In c' (at_inlet (lp l) q j) -> c_sig c = c_sig c') ->
                 forall c c', In c (at_inlet (lp l1) q j) -> In c' (at_inlet (lp l1) q j) -> c_sig c = c_sig c').
    { intros j Pj. destruct (Nat.eq_dec q o) as [-> | Q]; [destruct (Nat.eq_dec j i) as [-> | J] | ].
      - unfold l1. rewrite (ts_at kzero G o i b a l) by auto. intros c c' [<- | []] [<- | []]. reflexivity.
      - unfold l1. rewrite (ts_other kzero G o i b a l OK E Hi o j) by tauto. exact Pj.
      - unfold l1. rewrite (ts_other kzero G o i b a l OK E Hi q j) by tauto. exact Pj. }
    split; [now apply Hj | ]. split; [now apply Hj | ]. intros HN c. unfold l1. rewrite (ts_other kzero G o i b a l OK E Hi q 1); [now apply P2 | exact L | ].
    intros [-> <-]. rewrite E in X'. injection X' as <- <-. apply HN. now apply Ha.
  - intros P q a' X Z. destruct (HB q _ a' X) as [L X']. specialize (P q a' X' Z).
    destruct (Nat.eq_dec q o) as [-> | Q]; [destruct (Nat.eq_dec 1 i) as [<- | J] | ].
    + unfold l1. rewrite (ts_at kzero G o 1 b a l) by auto. discriminate.
    + unfold l1. now rewrite (ts_other kzero G o i b a l OK E Hi o 1) by tauto.
    + unfold l1. now rewrite (ts_other kzero G o i b a l OK E Hi q 1) by tauto.
  - intros q L X. destruct (Nat.eq_dec q o) as [-> | Q]; [destruct (Nat.eq_dec 0 i) as [<- | J] | ].
    + unfold l1. rewrite (ts_at kzero G o 0 b a l) by auto. reflexivity.
    + unfold l1. now rewrite (ts_other kzero G o i b a l OK E Hi o 0) by tauto.
    + unfold l1. now rewrite (ts_other kzero G o i b a l OK E Hi q 0) by tauto.
Qed.

Lemma validate_bin_ok G o b a l : lang_ok l -> pd_ok l -> lt l o = LBin b a ->
  exists l1, validate_bin G o a l = Some l1 /\ vstep l l1 /\ existsb c_sig (at_inlet (lp l1) o 0) = true.
Proof.
  intros OK P E. assert (Lo : o < ln l) by (apply (lang_lt l OK); now rewrite E).
  unfold OpModel.validate_bin.
  set (l1 := if existsb c_sig (at_inlet (lp l) o 0) then l else to_signal kzero G o 0 l).
  assert (S1 : vstep l l1 /\ existsb c_sig (at_inlet (lp l1) o 0) = true /\ at_inlet (lp l1) o 1 = at_inlet (lp l) o 1).
  { unfold l1. destruct (existsb c_sig (at_inlet (lp l) o 0)) eqn:X; [split; [now apply vstep_refl | auto] | ].
    assert (Hc : forall c, In c (at_inlet (lp l) o 0) -> c_sig c = false).
    { intros c Hc. destruct (c_sig c) eqn:S; [ | reflexivity]. rewrite (proj2 (existsb_exists _ _)) in X; [discriminate | eauto]. }
    split; [apply (to_signal_vstep G o 0 b a); auto; discriminate | ]. split.
    - now rewrite (ts_at kzero G o 0 b a l) by auto.
    - apply (ts_other kzero G o 0 b a l OK E ltac:(lia)); [exact Lo | intros [_ F]; discriminate]. }
  destruct S1 as (S1 & X1 & A1). rewrite A1.
  assert (OK1 : lang_ok l1) by apply S1. assert (E1 : lt l1 o = LBin b a) by (now rewrite (vs_lt _ _ S1)).
  destruct (P o b a E) as (P0 & P1 & P2).
  assert (Hright : a <> None -> existsb c_sig (at_inlet (lp l) o 1) = false) by (intros N; apply existsb_none; now apply P2).
  destruct a as [k | ].
  - rewrite Hright by discriminate. exists l1. auto.
  - destruct (existsb c_sig (at_inlet (lp l) o 1)) eqn:X; [exists l1; auto | ].
    destruct (at_inlet (lp l) o 1) as [ | c cs] eqn:AT; [exists l1; auto | ]. rewrite <- A1 in X.
    assert (Hc : forall c, In c (at_inlet (lp l1) o 1) -> c_sig c = false).
    { intros c' Hc. destruct (c_sig c') eqn:S; [ | reflexivity]. rewrite (proj2 (existsb_exists _ _)) in X; [discriminate | eauto]. }
    assert (S2 : vstep l1 (to_signal kzero G o 1 l1)) by (apply (to_signal_vstep G o 1 b None); auto).
    exists (to_signal kzero G o 1 l1). split; [reflexivity | ]. split; [eapply vstep_trans; eauto | ].
    apply (vs_sig _ _ S2); [ | exact X1]. apply (lang_lt l1 OK1). now rewrite E1.
Qed.

Lemma validate_all_ok todo : forall l, lang_ok l -> pd_ok l ->
  exists l0, validate_all todo l = Some l0 /\ vstep l l0 /\
    forall o b a, In o (map snd todo) -> lt l o = LBin b a -> existsb c_sig (at_inlet (lp l0) o 0) = true.
Proof.
  induction todo as [ | [G o] todo IH]; intros l OK P.
  - exists l. split; [reflexivity | ]. split; [now apply vstep_refl | ]. intros o b a [].
  - cbn [OpModel.validate_all]. unfold validate_one. cbn [fst snd].
    assert (Hd : (exists l1, (match lt l o with LBin _ args => validate_bin G o args l | _ => Some l end) = Some l1 /\ vstep l l1 /\
              forall b a, lt l o = LBin b a -> existsb c_sig (at_inlet (lp l1) o 0) = true)).
    { destruct (lt l o) as [b a | k | t] eqn:E.
      - destruct (validate_bin_ok G o b a l OK P E) as (l1 & E1 & S & X). exists l1. auto.
      - exists l. split; [reflexivity | ]. split; [now apply vstep_refl | discriminate].
      - exists l. split; [reflexivity | ]. split; [now apply vstep_refl | discriminate]. }
    destruct Hd as (l1 & E1 & S1 & X1). rewrite E1.
    destruct (IH l1) as (l0 & E0 & S0 & X0); [apply S1 | now apply S1 | ]. exists l0. split; [exact E0 | ]. split; [eapply vstep_trans; eauto | ].
    intros q b a Hq Eq. assert (L : q < ln l) by (apply (lang_lt l OK); now rewrite Eq).
    pose proof (rt_ln _ _ _ _ _ _ (vs_red _ _ S1)).
    destruct Hq as [<- | Hq].
    + apply (vs_sig _ _ S0); [cbn in *; lia | ]. eauto.
    + apply (X0 q b a Hq). now rewrite (vs_lt _ _ S1).
Qed.

(** HeavyLang patches. *)
Lemma hv_ready l : hv_ok l -> no_zero_factor l -> ready kzero is_zero l.
Proof.
  intros H NZ o b a E. destruct (H o b a E) as (P0 & P1 & HS). split.
  - destruct HS as [(c & Hc & S) | ((c & Hc & S) & (c' & Hc' & S'))].
    + left. split; [apply fmt_left; [now apply homogeneous | ] | now apply homogeneous]. apply existsb_exists. now exists c.
    + right. split; [ | apply fmt_left; [now apply homogeneous | ]; apply existsb_exists; now exists c'].
      unfold fmt_of. rewrite (existsb_none c_sig), (proj2 (existsb_exists _ _)); [reflexivity | exists c; now rewrite S | ].
      intros d Hd. now rewrite (P0 d c).
  - intros -> Z F. apply fmt_none in F. revert F. now apply (NZ o a).
Qed.

(** Both stages. *)
Notation reduce_all := (reduce_all kzero is_zero is_one is_minus_one).
Lemma operators_ok l todo : lang_ok l -> pd_ok l -> no_zero_factor l -> (forall o b a, lt l o = LBin b a -> In o (map snd todo)) ->
  exists l0, validate_all todo l = Some l0 /\ reduced_to l l0 /\
  forall todo', (forall o, is_lang (lt l0 o) -> In o (map snd todo')) ->
  exists l', reduce_all todo' l0 = Some l' /\ (forall o, ~ is_lang (lt l' o)) /\ reduced_to l l'.
Proof.
  intros OK P NZ CV. destruct (validate_all_ok todo l OK P) as (l0 & E0 & S & X). exists l0. split; [exact E0 | ]. split; [apply S | ].
  intros todo' CV'.
  assert (R : ready kzero is_zero l0).
  { intros o b a E. assert (L : o < ln l). { destruct (Nat.lt_ge_cases o (ln l)) as [ | L]; [assumption | ]. exfalso. now apply (vs_new _ _ S o L b a). }
    destruct (vs_pd _ _ S P o b a E) as (P0 & P1 & P2).
    assert (E' : lt l o = LBin b a) by (now rewrite <- (vs_lt _ _ S)).
    split; [left; split; [apply fmt_left; [now apply homogeneous | ]; apply (X o b a); eauto | now apply homogeneous] | ].
    intros -> Z F. apply fmt_none in F. revert F. now apply (vs_nz _ _ S NZ o a). }
  destruct (reduce_all_ok kzero is_zero is_one is_minus_one todo' l0) as (l' & E' & R' & N'); [apply S | exact R | ].
  exists l'. split; [exact E' | ]. split.
  - intros o Ho. destruct (N' o Ho) as [H1 H2]. auto.
  - apply (reduced_trans l l0 l'); [ | apply S | exact R']. intros q L N. now rewrite (vs_lt _ _ S).
Qed.
End Validate.
