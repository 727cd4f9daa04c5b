(** C105, C106: binary signal operators. *)
From Verif Require Import GraphModel GraphSpec GraphProps RewriteModel RewriteSpec RewriteProofs6 RewriteProps RewriteExist OpModel OpSpec OpProofs OpProofs2 OpProofs3 OpProofs6 OpProofs8.
From Coq Require Import Permutation.

Lemma meaning_of_solution {A K} op neg (zero : A) (kzero : K) cst inp other trace l V :
  (forall o, ~ is_lang (lt l o)) ->
  solution (op OAdd) zero inp (lp l) (ir_value op neg zero cst other trace l) V -> meaning op neg zero kzero cst inp other trace l V.
Proof.
  intros NL (S1 & S2 & S3 & S4).
  assert (HT : forall o i, takes op l V o i zero (inlet_sum (op OAdd) zero (lp l) V o i)).
  { intros o i. unfold takes, arriving, inlet_sum. destruct (map _ _) as [ | v vs]; [reflexivity | apply sums_fold]. }
  split.
  - intros o b a E. exfalso. apply (NL o). now rewrite E.
  - intros o k E. exfalso. apply (NL o). now rewrite E.
  - intros o t sg ins outs E Ek. exists (map (inlet_sum (op OAdd) zero (lp l) V o) (sig_lets ins)). split; [ | intros j; eapply S1; eauto].
    induction (sig_lets ins); constructor; auto.
  - exact S2.
  - intros G objs il ol i o Eg Hi Ek. rewrite (S3 G objs il ol i o Eg Hi Ek). apply HT.
  - intros G objs il ol j o Eg Hj. rewrite (S4 G objs il ol j o Eg Hj). apply HT.
Qed.
Lemma takes_of_sum {A K} op (zero : A) (l l' : lang K) V V' q i : Permutation (arriving l V q i) (arriving l' V' q i) ->
  takes op l V q i zero (inlet_sum (op OAdd) zero (lp l') V' q i).
Proof.
  intros P. eapply takes_perm; [exact P | ]. unfold takes, arriving, inlet_sum. destruct (map _ _) as [ | v vs]; [reflexivity | apply sums_fold].
Qed.

(** ** C105 *)
(** Translating and reducing a patch never fails, leaves no operator, and what the resulting IR objects
    compute are signals that the original patch describes: with the inputs [inp], messages [trace] and
    arbitrary other objects, every inlet of the remaining objects gets the sum of what the original
    patch connects to it. *)
Theorem operators_compute_what_the_patch_says : forall (K : Type) (kzero : K) (is_zero is_one is_minus_one : K -> bool) (l : lang K) todo,
  lang_ok l -> pd_ok l -> no_zero_factor kzero is_zero l ->
  (forall o b a, lt l o = LBin b a -> In o (map snd todo)) ->
  exists l0, validate_all kzero todo l = Some l0 /\
  forall todo', (forall o, is_lang (lt l0 o) -> In o (map snd todo')) ->
  exists l', reduce_all kzero is_zero is_one is_minus_one todo' l0 = Some l' /\
    (forall o, ~ is_lang (lt l' o)) /\ lang_ok l' /\
    (forall q, q < ln l -> ~ is_lang (lt l q) -> lt l' q = lt l q) /\
    forall (A : Type) op neg (zero : A) cst inp other trace, laws op neg zero kzero cst is_zero is_one is_minus_one ->
    forall V', solution (op OAdd) zero inp (lp l') (ir_value op neg zero cst other trace l') V' ->
    exists V, meaning op neg zero kzero cst inp other trace l V /\
      forall q, q < ln l -> ~ is_lang (lt l q) ->
        (forall j, V q j = V' q j) /\ (forall i, takes op l V q i zero (inlet_sum (op OAdd) zero (lp l') V' q i)).
Proof.
  intros K kzero is_zero is_one is_minus_one l todo OK P NZ CV.
  destruct (operators_ok kzero is_zero is_one is_minus_one l todo OK P NZ CV) as (l0 & E0 & _ & H). exists l0. split; [exact E0 | ].
  intros todo' CV'. destruct (H todo' CV') as (l' & E' & NL & R). exists l'. split; [exact E' | ]. split; [exact NL | ]. split; [apply R | ]. split; [apply R | ].
  intros A op neg zero cst inp other trace LA V' SV.
  destruct (rt_sem _ _ _ _ _ _ R A op neg zero cst inp other trace LA V') as (V & M & HV); [now apply meaning_of_solution | ].
  exists V. split; [exact M | ]. intros q L N. destruct (HV q L N) as [J I]. split; [exact J | ]. intros i. now apply takes_of_sum.
Qed.

(** The same for a HeavyLang patch (of a library object, say), which hv2ir reduces as it is: here the right
    operand may be the signal and the left one messages. *)
Theorem heavy_operators_compute_what_the_patch_says : forall (K : Type) (kzero : K) (is_zero is_one is_minus_one : K -> bool) (l : lang K) todo,
  lang_ok l -> hv_ok l -> no_zero_factor kzero is_zero l ->
  (forall o, is_lang (lt l o) -> In o (map snd todo)) ->
  exists l', reduce_all kzero is_zero is_one is_minus_one todo l = Some l' /\
    (forall o, ~ is_lang (lt l' o)) /\ lang_ok l' /\
    (forall q, q < ln l -> ~ is_lang (lt l q) -> lt l' q = lt l q) /\
    forall (A : Type) op neg (zero : A) cst inp other trace, laws op neg zero kzero cst is_zero is_one is_minus_one ->
    forall V', solution (op OAdd) zero inp (lp l') (ir_value op neg zero cst other trace l') V' ->
    exists V, meaning op neg zero kzero cst inp other trace l V /\
      forall q, q < ln l -> ~ is_lang (lt l q) ->
        (forall j, V q j = V' q j) /\ (forall i, takes op l V q i zero (inlet_sum (op OAdd) zero (lp l') V' q i)).
Proof.
  intros K kzero is_zero is_one is_minus_one l todo OK P NZ CV.
  destruct (reduce_all_ok kzero is_zero is_one is_minus_one todo l OK) as (l' & E' & R & N'); [apply (hv_ready kzero is_zero l P NZ) | ].
  assert (NL : forall o, ~ is_lang (lt l' o)) by (intros o Ho; destruct (N' o Ho); auto).
  exists l'. split; [exact E' | ]. split; [exact NL | ]. split; [apply R | ]. split; [apply R | ].
  intros A op neg zero cst inp other trace LA V' SV.
  destruct (rt_sem _ _ _ _ _ _ R A op neg zero cst inp other trace LA V') as (V & M & HV); [now apply meaning_of_solution | ].
  exists V. split; [exact M | ]. intros q L N. destruct (HV q L N) as [J I]. split; [exact J | ]. intros i. now apply takes_of_sum.
Qed.

(** Through cascade_expansion, fma_replacement, ordering and buffer assignment to the output channels:
    provided the reduced patch is well formed (no feedback). *)
Theorem operators_end_to_end : forall (K : Type) (kzero : K) (is_zero is_one is_minus_one : K -> bool) (l : lang K) todo,
  lang_ok l -> pd_ok l -> no_zero_factor kzero is_zero l ->
  (forall o b a, lt l o = LBin b a -> In o (map snd todo)) ->
  (forall o sg ins outs ch, kind_of (lp l) o = Leaf sg ins outs (Some ch) -> lt l o = LIr (IBin OAdd)) ->
  exists l0, validate_all kzero todo l = Some l0 /\
  forall todo', (forall o, is_lang (lt l0 o) -> In o (map snd todo')) ->
  exists l', reduce_all kzero is_zero is_one is_minus_one todo' l0 = Some l' /\
  forall root depth level rank, let w := as_work l' in
  fresh_from (pt w) (nxt w) -> reduced (pt w) root depth level rank -> all_connected_inside (pt w) root -> arithmetic w ->
  let w' := fma_replacement depth root (cascade_expansion depth root w) in
  exists code P, compile depth (pt w') root = Some (code, P) /\
  forall (A : Type) op neg (zero : A) cst inp other trace build (m : mem), laws op neg zero kzero cst is_zero is_one is_minus_one ->
    (forall x y, op OAdd x y = op OAdd y x) -> (build = Neon8 -> forall x, ty w x <> Sub) ->
    m BZero = zero -> (forall ch, m (BIn ch) = inp ch) ->
    exists V x, meaning op neg zero kzero cst inp other trace l V /\
    forall ch,
      snd (exec (kernels (op OAdd) (op OSub) (op OMul) build (ty w') (ir_value op neg zero cst other trace l')) code m) (BOut ch) =
        fold_left (fun acc o => op OAdd (x o) acc) (filter (is_dac (lp l) ch) (map i_obj code)) (m (BOut ch)) /\
      (forall o, is_dac (lp l) ch o = true -> takes op l V o 0 zero (x o)) /\
      (forall o, within (lp l') root o -> is_dac (lp l) ch o = true -> In o (map i_obj code)).
Proof.
  intros K kzero is_zero is_one is_minus_one l todo OK P NZ CV HD.
  destruct (operators_ok kzero is_zero is_one is_minus_one l todo OK P NZ CV) as (l0 & E0 & _ & H). exists l0. split; [exact E0 | ].
  intros todo' CV'. destruct (H todo' CV') as (l' & E' & NL & R). exists l'. split; [exact E' | ].
  intros root depth level rank w F WF HI AR w'.
  destruct (compiled_patch_computes_original root depth level rank w F WF HI AR) as (code & Pq & EC & X). exists code, Pq. split; [exact EC | ].
  intros A op neg zero cst inp other trace bd m LA Hc Hb Hz Hin.
  destruct (solution_exists (pt w) root depth (nxt w) level rank F WF (op OAdd) zero inp (ir_value op neg zero cst other trace l')) as [V' SV].
  assert (Hk : forall o xs j, (length xs = 2 \/ ty w o = Other) -> kernels (op OAdd) (op OSub) (op OMul) bd (ty w) (ir_value op neg zero cst other trace l') o xs j = ir_value op neg zero cst other trace l' o xs j).
  { intros o xs j Hl. unfold kernels. destruct (ty w o) eqn:Et; try reflexivity.
    all: unfold w, as_work in Et; cbn [ty] in Et; destruct (lt l' o) as [ | | [[ | | | | ] | | | | | | ]] eqn:El; try discriminate.
    all: destruct Hl as [Hl | Hl]; [ | discriminate]; destruct xs as [ | x1 [ | x2 [ | ]]]; try discriminate; cbn; unfold ir_value; now rewrite El. }
  assert (SV' : solution (op OAdd) zero inp (pt w) (kernels (op OAdd) (op OSub) (op OMul) bd (ty w) (ir_value op neg zero cst other trace l')) V').
  { destruct SV as (S1 & S2 & S3 & S4). split; [ | split; [exact S2 | split; [exact S3 | exact S4]]].
    intros o sg ins outs Ek j. rewrite Hk; [eapply S1; eauto | ].
    pose proof (ar_kind _ AR o) as AK. destruct (ty w o) eqn:Et; auto; left.
    - rewrite Ek in AK. injection AK as -> -> ->. reflexivity.
    - destruct AK as [d AK]. rewrite Ek in AK. injection AK as -> -> ->. reflexivity.
    - rewrite Ek in AK. injection AK as -> -> ->. reflexivity.
    - exfalso. unfold w, as_work in Et; cbn [ty] in Et. destruct (lt l' o) as [ | | [[ | | | | ] | | | | | | ]]; discriminate.
    - exfalso. unfold w, as_work in Et; cbn [ty] in Et. destruct (lt l' o) as [ | | [[ | | | | ] | | | | | | ]]; discriminate. }
  specialize (X A (op OAdd) (op OSub) (op OMul) zero inp bd (ir_value op neg zero cst other trace l') m V' Hc Hb SV' Hz Hin).
  destruct (rt_sem _ _ _ _ _ _ R A op neg zero cst inp other trace LA V') as (V & M & HV); [now apply meaning_of_solution | ].
  exists V, (fun o => inlet_sum (op OAdd) zero (lp l') V' o 0). split; [exact M | ]. intros ch.
  fold w' in X. destruct (exec _ code m) as [tr m']. destruct X as (_ & _ & X3 & X4). cbn [snd].
  assert (Hdac : forall o, is_dac (lp l) ch o = true -> o < ln l /\ ~ is_lang (lt l o) /\ lt l' o = LIr (IBin OAdd)).
  { intros o Ho. unfold is_dac in Ho. destruct (kind_of (lp l) o) as [sg ins outs [k | ] | | | ] eqn:Ek; try discriminate.
    pose proof (HD o _ _ _ _ Ek) as El. assert (L : o < ln l). { destruct (Nat.lt_ge_cases o (ln l)) as [ | G]; [assumption | ]. destruct (lo_free l OK o G). congruence. }
    assert (N : ~ is_lang (lt l o)) by (rewrite El; intros []). split; [exact L | ]. split; [exact N | ]. now rewrite (rt_lt _ _ _ _ _ _ R). }
  assert (Hsame : forall o, is_dac (lp l') ch o = is_dac (lp l) ch o).
  { intros o. destruct (is_dac (lp l) ch o) eqn:Ed.
    - destruct (Hdac o Ed) as (L & N & _). pose proof (rt_kind _ _ _ _ _ _ R o L N) as SK. unfold is_dac in *.
      destruct (kind_of (lp l) o) as [sg ins outs [k | ] | | | ]; try discriminate. destruct (kind_of (lp l') o); cbn in SK; try contradiction; injection SK as <- <- <- <- || discriminate. exact Ed.
    - apply not_true_is_false. intros T. rewrite <- not_true_iff_false in Ed. apply Ed. unfold is_dac in *. destruct (kind_of (lp l') o) as [sg ins outs [k | ] | | | ] eqn:Ek; try discriminate.
      rewrite (rt_dac _ _ _ _ _ _ R o _ _ _ _ Ek). exact T. }
  split; [ | split].
  - rewrite X3. replace (filter (is_dac (pt w) ch) (map i_obj code)) with (filter (is_dac (lp l) ch) (map i_obj code)) by (apply filter_ext; intros; symmetry; apply Hsame).
    clear X3 X4. assert (HF : forall o, In o (filter (is_dac (lp l) ch) (map i_obj code)) -> is_dac (lp l) ch o = true) by (intros o Ho; now apply filter_In in Ho).
    revert HF. generalize (m (BOut ch)). induction (filter (is_dac (lp l) ch) (map i_obj code)) as [ | o os IH]; intros a0 HF; [reflexivity | ]. cbn [fold_left].
    rewrite Hk by (left; reflexivity). destruct (Hdac o) as (_ & _ & El); [apply HF; now left | ]. unfold ir_value at 2. rewrite El. apply IH. intros; apply HF; now right.
  - intros o Ho. destruct (Hdac o Ho) as (L & N & _). apply takes_of_sum. now apply HV.
  - intros o Hw Ho. apply (X4 ch); [exact Hw | now rewrite <- Hsame in Ho].
Qed.

(** ** Integers as samples: all hypotheses hold for a patch with each kind of operator *)
Definition zop (b : bop) : Z -> Z -> Z := match b with OAdd => Z.add | OSub => Z.sub | OMul => Z.mul | ODiv => Z.div | ONamed _ => Z.max end.
Definition zlaws : laws zop Z.opp 0%Z 0%Z (fun k => k) (Z.eqb 0) (Z.eqb 1) (Z.eqb (-1)).
Proof. split; try reflexivity; intros k x E; apply Z.eqb_eq in E; subst k; cbn; try lia. apply Z.div_1_r. Qed.
Notation validateZ := (validate_all 0%Z).
Notation reduceZ := (reduce_all 0%Z (Z.eqb 0) (Z.eqb 1) (Z.eqb (-1))).
Notation ctl_conn a i b j := {| c_from := a; c_out := i; c_to := b; c_in := j; c_sig := false |}.
(** 1 adc~, 2 [*~ 2], 3 [+~ 0] with 1 and 2, 4 [-~] with 3 and messages from 6, 5 dac~, 7 [*~ -1] of 1, also to dac~ *)
Definition mixer : lang Z :=
  {| lp := {| kind_of := fun o => nth o [Graph [1; 2; 3; 4; 5; 6; 7] [1] []; Inlet (Some 0); Leaf true [F; F] [F] None; Leaf true [F; F] [F] None; Leaf true [F; F] [F] None;
                                         Leaf true [F; F] [F] (Some 0); Leaf false [] [None] None; Leaf true [F; F] [F] None] Outlet;
              conns := [signal_conn 1 0 2 0; signal_conn 1 0 3 0; signal_conn 2 0 3 0; signal_conn 3 0 4 0; ctl_conn 6 0 4 1; signal_conn 4 0 5 0;
                        signal_conn 1 0 7 0; signal_conn 7 0 5 0] |};
     lt := fun o => nth o [LIr IOther; LIr IOther; LBin OMul (Some 2%Z); LBin OAdd (Some 0%Z); LBin OSub None; LIr (IBin OAdd); LIr ICtl; LBin OMul (Some (-1)%Z)] (LIr IOther);
     ln := 8 |}.
Definition mixer_todo : list (nat * nat) := [(0, 2); (0, 3); (0, 4); (0, 7)].
Ltac each8 x := do 8 (destruct x as [ | x]; [ | ]).
Lemma mixer_graph G objs il ol : kind_of (lp mixer) G = Graph objs il ol -> G = 0 /\ objs = [1; 2; 3; 4; 5; 6; 7] /\ il = [1] /\ ol = [].
Proof. do 8 (destruct G as [| G]; [cbn; intros E; try discriminate; injection E as <- <- <-; auto | ]). destruct G; discriminate. Qed.
Example mixer_ok : lang_ok mixer /\ pd_ok mixer /\ no_zero_factor 0%Z (Z.eqb 0) mixer /\
  (forall o b a, lt mixer o = LBin b a -> In o (map snd mixer_todo)) /\
  (forall o sg ins outs ch, kind_of (lp mixer) o = Leaf sg ins outs (Some ch) -> lt mixer o = LIr (IBin OAdd)).
Proof.
  split; [ | split; [ | split; [ | split]]].
  - split.
    + intros x Hx. do 8 (destruct x as [ | x]; [cbn in Hx; lia | ]). destruct x; split; reflexivity.
    + intros c H. each_conn H; cbn; lia.
    + intros G objs il ol o E H. destruct (mixer_graph G objs il ol E) as (-> & -> & -> & ->). cbn in H. destruct H as [<- | []]. cbn. split; [lia | tauto].
    + intros o b a. do 8 (destruct o as [ | o]; [cbn; intros E; try discriminate; reflexivity | ]). destruct o; discriminate.
    + intros o k. do 8 (destruct o as [ | o]; [cbn; intros E; try discriminate; reflexivity | ]). destruct o; discriminate.
    + intros o y. do 8 (destruct o as [ | o]; [cbn; intros E; try discriminate; reflexivity | ]). destruct o; discriminate.
    + intros c H. each_conn H; cbn; tauto.
    + intros c b a H _. each_conn H; cbn; lia.
    + intros c k H. each_conn H; cbn; discriminate.
    + exists (fun o => match o with 2 => 2 | 7 => 2 | 3 => 3 | 4 => 4 | 5 => 5 | _ => 0 end). intros c H _. each_conn H; cbn; lia.
  - intros o b a. do 8 (destruct o as [ | o]; [cbn; intros E; try discriminate; injection E as <- <-; cbn; intuition (subst; reflexivity || congruence) | ]). destruct o; discriminate.
  - intros o a. do 8 (destruct o as [ | o]; [cbn; intros E; try discriminate; injection E as <-; discriminate | ]). destruct o; discriminate.
  - intros o b a. do 8 (destruct o as [ | o]; [cbn; intros E; try discriminate; tauto | ]). destruct o; discriminate.
  - intros o sg ins outs ch. do 8 (destruct o as [ | o]; [cbn; intros E; try discriminate; reflexivity | ]). destruct o; discriminate.
Qed.
(** messages from 4 minus the input, 1 - 7: the var starts at 0. *)
Definition negated : lang Z := mkLang
  {| kind_of := fun o => match o with
       | 0 => Graph [1; 2; 3; 4] [1] []
       | 1 => Inlet (Some 0)
       | 2 => Leaf true [Some false; Some false] [Some false] None
       | 3 => Leaf true [Some false; Some false] [Some false] (Some 0)
       | 4 => Leaf false [] [None] None
       | _ => Outlet end;
     conns := [signal_conn 1 0 2 1; {| c_from := 4; c_out := 0; c_to := 2; c_in := 0; c_sig := false |}; signal_conn 2 0 3 0] |}
  (fun o => match o with 2 => LBin OSub (Some 3%Z) | 3 => LIr (IBin OAdd) | _ => LIr IOther end) 5.
Example negated_ok : lang_ok negated /\ hv_ok negated /\ no_zero_factor 0%Z (Z.eqb 0) negated /\
  (forall o, is_lang (lt negated o) -> In o (map snd [(0, 2)])).
Proof.
  split; [ | split; [ | split]].
  - split.
    + intros x Hx. do 5 (destruct x as [ | x]; [cbn in Hx; lia | ]). destruct x; split; reflexivity.
    + intros c H. each_conn H; cbn; lia.
    + intros G objs il ol o E H. do 5 (destruct G as [| G]; [cbn in E; try discriminate; injection E as <- <- <-; cbn in H; destruct H as [<- | []]; (cbn; split; [lia | tauto]) | ]). destruct G; discriminate.
    + intros o b a. do 5 (destruct o as [ | o]; [cbn; intros E; try discriminate; reflexivity | ]). destruct o; discriminate.
    + intros o k. do 5 (destruct o as [ | o]; [cbn; intros E; try discriminate; reflexivity | ]). destruct o; discriminate.
    + intros o y. do 5 (destruct o as [ | o]; [cbn; intros E; try discriminate; reflexivity | ]). destruct o; discriminate.
    + intros c H. each_conn H; cbn; tauto.
    + intros c b a H _. each_conn H; cbn; lia.
    + intros c k H. each_conn H; cbn; discriminate.
    + exists (fun o => match o with 2 => 1 | 3 => 2 | _ => 0 end). intros c H S. each_conn H; cbn in S |- *; try discriminate; lia.
  - intros o b a E. assert (o = 2) as -> by (do 5 (destruct o as [ | o]; [cbn in E; (discriminate || reflexivity) | ]); destruct o; discriminate).
    split; [ | split].
    + intros c c' H H'. cbn in H, H'. destruct H as [<- | []], H' as [<- | []]. reflexivity.
    + intros c c' H H'. cbn in H, H'. destruct H as [<- | []], H' as [<- | []]. reflexivity.
    + right. split; eexists; (split; [left; reflexivity | reflexivity]).
  - intros o a. do 5 (destruct o as [ | o]; [cbn; intros E; try discriminate; injection E as <-; discriminate | ]). destruct o; discriminate.
  - intros o. do 5 (destruct o as [ | o]; [cbn; intros E; try tauto | ]). destruct o; cbn; tauto.
Qed.
(** Validate adds the var 8; then everything is reduced and compiled: (x + 2x) - h - x, with input x = 5 and
    after the messages 7 and 3. *)
Definition mixer_out : option Z :=
  match validateZ mixer_todo mixer with
  | Some l0 => match reduceZ (mixer_todo ++ [(0, 8)]) l0 with
    | Some l' =>
      let w' := fma_replacement 2 0 (cascade_expansion 2 0 (as_work l')) in
      match compile 2 (pt w') 0 with
      | Some (code, _) => Some (snd (exec (kernels Z.add Z.sub Z.mul Avx (ty w') (ir_value zop Z.opp 0%Z (fun k => k) (fun _ _ _ => 0%Z) [(6, 0, 7%Z); (6, 0, 3%Z)] l')) code
                                       (fun b => match b with BIn 0 => 5%Z | _ => 0%Z end)) (BOut 0))
      | None => None end
    | None => None end
  | None => None end.
Example mixer_value : mixer_out = Some (5 + 2 * 5 - 3 - 5)%Z.
Proof. vm_compute. reflexivity. Qed.
(** The reduced mixer meets the hypotheses of [operators_end_to_end]. *)
Definition mixer' : lang Z :=
  match validateZ mixer_todo mixer with
  | Some l0 => match reduceZ (mixer_todo ++ [(0, 8)]) l0 with Some l' => l' | None => mixer end
  | None => mixer end.
Lemma mixer'_conns : conns (lp mixer') =
  [signal_conn 1 0 9 0; ctl_conn 6 0 14 0; signal_conn 12 0 5 0; signal_conn 1 0 13 0; signal_conn 13 0 5 0; signal_conn 15 0 12 1; signal_conn 10 0 9 1;
   signal_conn 1 0 11 0; signal_conn 9 0 11 1; signal_conn 11 0 12 0].
Proof. vm_compute. reflexivity. Qed.
Definition mixer'_objs := [1; 5; 6; 9; 10; 11; 12; 13; 14; 15].
Definition mixer'_kinds := [Graph mixer'_objs [1] []; Inlet (Some 0); Outlet; Outlet; Outlet; Leaf true [F; F] [F] (Some 0); Leaf false [] [None] None; Outlet; Outlet;
  Leaf true [F; F] [F] None; Leaf true [] [F] None; Leaf true [F; F] [F] None; Leaf true [F; F] [F] None; Leaf true [F] [F] None; Leaf false [None] [F] None; Leaf true [] [F] None].
Lemma mixer'_kind o : kind_of (lp mixer') o = nth o mixer'_kinds Outlet.
Proof. do 16 (destruct o as [ | o]; [vm_compute; reflexivity | ]). vm_compute. destruct o; reflexivity. Qed.
Definition mixer'_types := [Other; Other; Other; Other; Other; Add; Other; Other; Other; Mul; Other; Add; Sub; Other; Other; Other].
Lemma mixer'_type o : ty (as_work mixer') o = nth o mixer'_types Other.
Proof. do 16 (destruct o as [ | o]; [vm_compute; reflexivity | ]). vm_compute. destruct o; reflexivity. Qed.
Lemma mixer'_ln : ln mixer' = 16.
Proof. vm_compute. reflexivity. Qed.
Local Opaque mixer'.
Lemma mixer'_graph G objs il ol : kind_of (lp mixer') G = Graph objs il ol -> G = 0 /\ objs = mixer'_objs /\ il = [1] /\ ol = [].
Proof. rewrite mixer'_kind. do 16 (destruct G as [| G]; [cbn; intros E; try discriminate; injection E as <- <- <-; auto | ]). destruct G; discriminate. Qed.
Lemma mixer'_inside o G : inside (lp mixer') o G <-> G = 0 /\ In o mixer'_objs.
Proof.
  unfold inside. split.
  - destruct (kind_of (lp mixer') G) as [| | | objs il ol] eqn:E; try tauto. destruct (mixer'_graph G objs il ol E) as (-> & -> & _). auto.
  - intros [-> H]. rewrite mixer'_kind. exact H.
Qed.
Example mixer'_ok : let w := as_work mixer' in fresh_from (pt w) (nxt w) /\
  reduced (pt w) 0 2 (fun o => match o with 0 => 0 | _ => 1 end) (fun o => match o with 9 => 1 | 11 => 2 | 12 => 3 | 13 => 1 | 5 => 4 | 14 => 1 | _ => 0 end) /\
  all_connected_inside (pt w) 0 /\ arithmetic w.
Proof.
  intros w. change (pt w) with (lp mixer'). change (nxt w) with (ln mixer'). rewrite mixer'_ln. split; [ | split; [ | split]].
  - constructor.
    + intros x Hx. rewrite mixer'_kind. apply nth_overflow. exact Hx.
    + intros c H. rewrite mixer'_conns in H. each_conn H; cbn; lia.
    + intros G objs il ol o E H. destruct (mixer'_graph G objs il ol E) as (-> & -> & -> & ->). cbn in H. intuition lia.
  - constructor.
    + split; [exists mixer'_objs, [1], []; now rewrite mixer'_kind | split; [reflexivity | lia]].
    + intros o G G' H H'. pose proof (proj1 (mixer'_inside _ _) H) as [A _]. pose proof (proj1 (mixer'_inside _ _) H') as [B _]. congruence.
    + intros o G H0. pose proof (proj1 (mixer'_inside _ _) H0) as [-> H]. cbn in H. intuition (subst; cbn; lia).
    + intros G objs il ol E. destruct (mixer'_graph G objs il ol E) as (-> & -> & -> & ->). split; [repeat constructor; intros [] | ]. split; [constructor | ].
      split; intros o; rewrite mixer'_kind.
      * split; [intros [<- | []]; split; [now left | exists (Some 0); reflexivity] | ]. intros [H (a & Ea)]. cbn in H. intuition (subst; try (cbn in Ea; discriminate); now left).
      * split; [intros [] | ]. intros [H Ea]. cbn in H. intuition (subst; cbn in Ea; discriminate).
    + intros c H. rewrite mixer'_conns in H. split; [exists 0; rewrite !mixer'_inside; each_conn H; cbn; tauto | ].
      unfold num_inlets, num_outlets. rewrite !mixer'_kind. each_conn H; cbn; lia.
    + intros c H. rewrite mixer'_conns in H. each_conn H; cbn; lia.
    + intros c H. rewrite mixer'_conns in H. rewrite mixer'_kind. each_conn H; cbn; unfold F; intros S; try discriminate; eauto.
    + intros c objs il ol o ch H. rewrite mixer'_conns in H. rewrite mixer'_kind. each_conn H; cbn [c_to c_sig signal_conn nth mixer'_kinds]; intros S E; try discriminate S; discriminate E.
    + intros o sg ins outs ch. rewrite mixer'_kind. unfold at_inlet. rewrite mixer'_conns.
      do 16 (destruct o as [| o]; [cbn; intros E; try discriminate; injection E as <- <- <- <-; auto|]). destruct o; discriminate.
  - intros c H. exists 0. split; [constructor | ]. apply mixer'_inside. rewrite mixer'_conns in H. each_conn H; cbn; tauto.
  - constructor.
    + intros x. change (pt w) with (lp mixer'). unfold w. rewrite mixer'_type, mixer'_kind. do 16 (destruct x as [ | x]; [cbn; unfold F; eauto | ]). destruct x; exact I.
    + intros c H. change (pt w) with (lp mixer') in H. rewrite mixer'_conns in H. unfold w. rewrite !mixer'_type. each_conn H; cbn; auto. intros [X | X]; congruence.
Qed.

(** ** C106: [*~ 0] *)
(** 1 adc~, 2 [*~ 0], 3 [+~ 5], 4 dac~: the output should be 5.  Reduced in the order of their creation, [*~ 0]
    is removed, then [+~ 5] is removed because nothing is connected to it: silence.  In the other order 5 comes out. *)
Definition muted : lang Z :=
  {| lp := {| kind_of := fun o => nth o [Graph [1; 2; 3; 4] [1] []; Inlet (Some 0); Leaf true [F; F] [F] None; Leaf true [F; F] [F] None;
                                         Leaf true [F; F] [F] (Some 0)] Outlet;
              conns := [signal_conn 1 0 2 0; signal_conn 2 0 3 0; signal_conn 3 0 4 0] |};
     lt := fun o => nth o [LIr IOther; LIr IOther; LBin OMul (Some 0%Z); LBin OAdd (Some 5%Z); LIr (IBin OAdd)] (LIr IOther);
     ln := 5 |}.
Definition muted_todo : list (nat * nat) := [(0, 2); (0, 3)].
Theorem zero_factor_refuted :
  lang_ok muted /\ pd_ok muted /\
  (forall inp other trace V x, meaning zop Z.opp 0%Z 0%Z (fun k => k) inp other trace muted V -> takes zop muted V 4 0 0%Z x -> x = 5%Z) /\
  (exists l', validateZ muted_todo muted = Some muted /\ reduceZ muted_todo muted = Some l' /\
     forall V x, takes zop l' V 4 0 0%Z x -> x = 0%Z) /\
  (exists l', reduceZ (rev muted_todo) muted = Some l' /\
     forall inp other trace V x, meaning zop Z.opp 0%Z 0%Z (fun k => k) inp other trace l' V -> takes zop l' V 4 0 0%Z x -> x = 5%Z).
Proof.
  split; [ | split; [ | split; [ | split]]].
  - split.
    + intros x Hx. do 5 (destruct x as [ | x]; [cbn in Hx; lia | ]). destruct x; split; reflexivity.
    + intros c H. each_conn H; cbn; lia.
    + intros G objs il ol o. do 5 (destruct G as [| G]; [cbn; intros E; try discriminate; injection E as <- <- <-; (intros [<- | []]; cbn; lia || (split; [lia | tauto])) | ]). destruct G; discriminate.
    + intros o b a. do 5 (destruct o as [ | o]; [cbn; intros E; try discriminate; reflexivity | ]). destruct o; discriminate.
    + intros o k. do 5 (destruct o as [ | o]; [cbn; intros E; try discriminate; reflexivity | ]). destruct o; discriminate.
    + intros o y. do 5 (destruct o as [ | o]; [cbn; intros E; try discriminate; reflexivity | ]). destruct o; discriminate.
    + intros c H. each_conn H; cbn; tauto.
    + intros c b a H _. each_conn H; cbn; lia.
    + intros c k H. each_conn H; cbn; discriminate.
    + exists (fun o => o). intros c H _. each_conn H; cbn; lia.
  - intros o b a. do 5 (destruct o as [ | o]; [cbn; intros E; try discriminate; injection E as <- <-; cbn; intuition (subst; reflexivity || congruence) | ]). destruct o; discriminate.
  - intros inp other trace V x M T. apply sums_single in T. cbn in T. subst x.
    destruct (mn_bin _ _ _ _ _ _ _ _ _ _ M 3 OAdd (Some 5%Z) eq_refl) as (u & w & T0 & T1 & Ev).
    destruct (mn_bin _ _ _ _ _ _ _ _ _ _ M 2 OMul (Some 0%Z) eq_refl) as (u2 & w2 & T2 & T3 & Ev2).
    apply sums_single in T0. cbn in T0. unfold takes in T1, T3. cbn in T1, T3.
    rewrite held_none in T1 by (intros c []). rewrite held_none in T3 by (intros c []). cbn in Ev, Ev2. subst. rewrite Ev, Ev2. lia.
  - eexists. split; [reflexivity | ]. split; [reflexivity | ]. intros V x T. exact T.
  - eexists. split; [reflexivity | ]. intros inp other trace V x M T. apply sums_single in T. cbn in T. subst x.
    destruct (new_bin _ _ _ _ _ _ _ _ _ _ M 5 OAdd eq_refl eq_refl) as (u & w & T0 & T1 & Ev).
    pose proof (new_const _ _ _ _ _ _ _ _ _ _ M 6 5%Z eq_refl eq_refl) as Ec.
    apply sums_single in T1. cbn in T1, Ev. unfold takes in T0. cbn in T0. subst. rewrite Ev, Ec. reflexivity.
Qed.

Print Assumptions operators_compute_what_the_patch_says.
Print Assumptions heavy_operators_compute_what_the_patch_says.
Print Assumptions operators_end_to_end.
Print Assumptions zero_factor_refuted.
