(** C31. *)
From Verif Require Import LineModel LineSpec.
From Coq Require Import Lra ZifyBool.
Local Open Scope Z_scope.

Definition op_of (e : event) : line_op :=
  match e with
  | Render => LBlock
  | Message (Ramp t n) => LMsg (MRamp t n)
  | Message (Jump v) => LMsg (MJump v)
  | Message Stop => LMsg MStop
  end.

Lemma s32_id z : -2147483648 <= z < 2147483648 -> s32 z = z.
Proof. intro H. unfold s32. rewrite Z.mod_small by lia. lia. Qed.
Lemma value_flat v l k p : value {| from := v; to := v; len := l; pos := p |} k = v.
Proof. unfold value; cbn. destruct (k <=? l); [|reflexivity]. unfold Rdiv. ring. Qed.

Definition slope (g : segment) : R := ((to g - from g) / IZR (len g))%R.
Definition at_ (g : segment) (k : Z) : R := (from g + IZR k * slope g)%R.
Lemma value_le g k : k <= len g -> value g k = at_ g k.
Proof. intro H. unfold value. replace (k <=? len g) with true by lia. reflexivity. Qed.
Lemma value_gt g k : len g < k -> value g k = to g.
Proof. intro H. unfold value. replace (k <=? len g) with false by lia. reflexivity. Qed.

(** *** Four lanes *)
Inductive inv4 : line4 -> segment -> Prop :=
| I4Flat n v l p : inv4 {| l4_n := n; l4_x := set1 v; l4_m := set1 0%R; l4_t := set1 v |} {| from := v; to := v; len := l; pos := p |}
| I4Ramp g : let r := len g - pos g in -2147483648 <= r - 3 -> r < 2147483648 ->
    inv4 {| l4_n := V4 r (r - 1) (r - 2) (r - 3);
            l4_x := V4 (at_ g (pos g)) (at_ g (pos g + 1)) (at_ g (pos g + 2)) (at_ g (pos g + 3));
            l4_m := set1 (4 * slope g)%R; l4_t := set1 (to g) |} g.
Lemma inv4_now o g : inv4 o g -> cur4 o = now 4 g.
Proof.
  intros [n v l p | g' r H1 H2]; unfold cur4, now; cbn [l4_n l4_x l4_m l4_t pos set1 lane].
  - rewrite value_flat. destruct (0 <? lane n 3); [|reflexivity]. lra.
  - destruct (0 <? r - 3) eqn:E.
    + rewrite value_le by lia. unfold at_. replace (pos g' + 4) with (pos g' + 3 + 1) by lia. rewrite (plus_IZR _ 1). lra.
    + rewrite value_gt by lia. reflexivity.
Qed.
Lemma inv4_react o g m : inv4 o g -> (match m with Ramp _ n => -2147483600 <= n < 2147483648 | _ => True end) ->
  match op_of (Message m) with LMsg m' => inv4 (line4_message o m') (react 4 g m) | LBlock => False end.
Proof.
  intros I H. pose proof (inv4_now o g I) as E. destruct m as [t n|v|]; cbn [op_of line4_message react].
  - rewrite E. rewrite !s32_id by lia.
    pose proof (I4Ramp {| from := now 4 g; to := t; len := n; pos := 0 |}) as R. cbn [len pos to] in R. cbv zeta in R.
    rewrite !Z.sub_0_r in R. specialize (R ltac:(lia) ltac:(lia)).
    unfold at_, slope in R. cbn [from to len] in R. 
    match goal with |- inv4 ?a ?g => match type of R with inv4 ?b g => replace a with b; [exact R|] end end.
    rewrite !Z.add_0_l. f_equal. f_equal; ring.
  - apply I4Flat.
  - rewrite E. apply I4Flat.
Qed.
Lemma inv4_block o g : inv4 o g -> -2147483648 <= len g - (pos g + 4) - 4 -> len g - pos g < 2147483648 ->
  inv4 (fst (line4_f o)) (advance 4 g) /\
  list4 (snd (line4_f o)) = map (fun i => value g (pos g + Z.of_nat i)) (seq 0 4).
Proof.
  intros [n v l p | g' r H1 H2] B1 B2.
  - split.
    + cbn. unfold set1. rewrite !Rplus_0_r. apply (I4Flat (sub4 n) v l (p + 4)).
    + cbn [seq map]. rewrite !value_flat. destruct n as [n0 n1 n2 n3]. cbn. destruct (n0 <? 0), (n1 <? 0), (n2 <? 0), (n3 <? 0); reflexivity.
  - split.
    + cbn. rewrite !s32_id by lia. pose proof (I4Ramp (advance 4 g')) as R. cbn [len pos advance to] in R. cbv zeta in R.
      specialize (R ltac:(lia) ltac:(lia)).
      match goal with |- inv4 ?a ?g => match type of R with inv4 ?b g => replace a with b; [exact R|] end end.
      unfold r. f_equal; [f_equal; lia|]. unfold at_, slope, advance, set1; cbn [from to len]. rewrite !plus_IZR. f_equal; ring.
    + cbn [seq map]. cbn. unfold r. rewrite !Z.add_0_r.
      assert (V : forall k, (if (len g' - pos g' - k <? 0) then to g' else at_ g' (pos g' + k)) = value g' (pos g' + k)).
      { intro k. destruct (len g' - pos g' - k <? 0) eqn:E; [rewrite value_gt by lia | rewrite value_le by lia]; reflexivity. }
      rewrite <- (V 1), <- (V 2), <- (V 3). pose proof (V 0) as V0. rewrite Z.sub_0_r, !Z.add_0_r in V0. rewrite V0. reflexivity.
Qed.
Lemma line4_sim ops : forall o g, inv4 o g -> 0 <= pos g -> len g < 2147483648 -> not_too_long 4 4 g ops ->
  line4_run o (map op_of ops) = output 4 4 g ops.
Proof.
  induction ops as [|e ops IH]; intros o g I P L H; [reflexivity|]. destruct e as [|m].
  - cbn [map op_of line4_run output]. destruct H as [H1 H2].
    destruct (inv4_block o g I H1 ltac:(lia)) as [I' E]. destruct (line4_f o) as [o' out]. cbn [fst snd] in *.
    rewrite E. f_equal. apply IH; auto; cbn; lia.
  - destruct H as [H1 H2]. pose proof (inv4_react o g m I H1) as R. cbn [map output].
    destruct (op_of (Message m)) as [|m'] eqn:E; [contradiction|]. cbn [line4_run]. apply IH; auto.
    + destruct m; cbn; lia. + destruct m; cbn; lia.
Qed.

(** *** Scalar *)
Inductive inv1 : line1 -> segment -> Prop :=
| I1Flat n v l p : -2147483648 <= n -> (n <= 0) -> n = l - p ->
    inv1 {| l1_n := n; l1_x := v; l1_m := 0%R; l1_t := v |} {| from := v; to := v; len := l; pos := p |}
| I1Ramp g : inv1 {| l1_n := len g - pos g; l1_x := at_ g (pos g); l1_m := slope g; l1_t := to g |} g.
Lemma inv1_now o g : inv1 o g -> cur1 o = now 1 g.
Proof.
  intros [n v l p H1 H2 H3 | g']; unfold cur1, now; cbn [l1_n l1_x l1_m l1_t pos].
  - rewrite value_flat. destruct (0 <? n); [|reflexivity]. lra.
  - destruct (0 <? len g' - pos g') eqn:E.
    + rewrite value_le by lia. unfold at_. rewrite (plus_IZR _ 1). lra.
    + rewrite value_gt by lia. reflexivity.
Qed.
Lemma line1_sim ops : forall o g, inv1 o g -> not_too_long 1 1 g ops ->
  line1_run o (map op_of ops) = Ok (output 1 1 g ops).
Proof.
  induction ops as [|e ops IH]; intros o g I H; [reflexivity|]. destruct e as [|m].
  - cbn [map op_of line1_run output]. destruct H as [H1 H2].
    assert (S : exists o', line1_f o = Ok (o', value g (pos g)) /\ inv1 o' (advance 1 g)).
    { destruct I as [n v l p N1 N2 N3 | g']; unfold line1_f; cbn [l1_n l1_x l1_m l1_t len pos] in *.
      - replace (-2147483648 <=? n - 1) with true by lia. eexists. rewrite value_flat. split.
        + destruct (n <? 0); reflexivity.
        + cbn. rewrite Rplus_0_r. apply (I1Flat (n - 1) v l (p + 1)); lia.
      - replace (-2147483648 <=? len g' - pos g' - 1) with true by lia. eexists. split.
        + do 2 f_equal. destruct (len g' - pos g' <? 0) eqn:E; [rewrite value_gt by lia|rewrite value_le by lia]; reflexivity.
        + pose proof (I1Ramp (advance 1 g')) as R. cbn [len pos advance to] in R.
          match goal with |- inv1 ?a ?g => match type of R with inv1 ?b g => replace a with b; [exact R|] end end.
          f_equal; [lia|]. unfold at_, slope, advance; cbn [from to len]. rewrite plus_IZR. ring. }
    destruct S as (o' & -> & I'). cbn [obind]. rewrite (IH o' (advance 1 g) I' H2). cbn [obind].
    change (seq 0 (Z.to_nat 1)) with [0%nat]. cbn [map app Z.of_nat]. rewrite Z.add_0_r. reflexivity.
  - destruct H as [H1 H2]. pose proof (inv1_now o g I) as E. cbn [map output].
    destruct m as [t n|v|]; cbn [op_of line1_run line1_message react] in *.
    + apply IH; auto. rewrite E. pose proof (I1Ramp {| from := now 1 g; to := t; len := n; pos := 0 |}) as R.
      unfold at_, slope in R. cbn [from to len pos] in R. rewrite Z.sub_0_r, Rmult_0_l, Rplus_0_r in R. exact R.
    + apply IH; auto. apply I1Flat; lia.
    + apply IH; auto. rewrite E. apply I1Flat; lia.
Qed.

(** *** Eight lanes *)
(** The AVX "current value": it overshoots when 3 to 7 samples remain. *)
Fixpoint calm (g : segment) (ops : list event) : Prop :=
  match ops with
  | [] => True
  | Render :: ops' => calm (advance 8 g) ops'
  | Message m :: ops' => (match m with Jump _ => True | _ => from g = to g \/ ~ (3 <= len g - pos g < 8) end) /\ calm (react 8 g m) ops'
  end.
Inductive inv8 : line8 -> segment -> Prop :=
| I8Flat n v l p : inv8 {| l8_n := n; l8_x := set1_8 v; l8_m := set1_8 0%R; l8_t := set1_8 v |} {| from := v; to := v; len := l; pos := p |}
| I8Ramp g : let r := len g - pos g in -2147483648 <= r - 3 -> r < 2147483648 ->
    inv8 {| l8_n := V4 r (r - 1) (r - 2) (r - 3);
            l8_x := V8 (V4 (at_ g (pos g)) (at_ g (pos g + 1)) (at_ g (pos g + 2)) (at_ g (pos g + 3)))
                       (V4 (at_ g (pos g + 4)) (at_ g (pos g + 5)) (at_ g (pos g + 6)) (at_ g (pos g + 7)));
            l8_m := set1_8 (8 * slope g)%R; l8_t := set1_8 (to g) |} g.
Lemma at_flat g k : from g = to g -> at_ g k = to g.
Proof. intro H. unfold at_, slope. rewrite H. unfold Rdiv. ring. Qed.
Lemma inv8_now o g : inv8 o g -> from g = to g \/ ~ (3 <= len g - pos g < 8) -> cur8 o = now 8 g.
Proof.
  intros [n v l p | g' r H1 H2] C; unfold cur8, now; cbn [l8_n l8_x l8_m l8_t pos set1_8 set1 lane7 lane].
  - rewrite value_flat. destruct (n1_positive n); [|reflexivity]. lra.
  - assert (E8 : (at_ g' (pos g' + 7) + 8 * slope g' / 8 = at_ g' (pos g' + 8))%R).
    { unfold at_. replace (pos g' + 8) with (pos g' + 7 + 1) by lia. rewrite (plus_IZR _ 1). lra. }
    rewrite E8.
    destruct C as [C|C].
    + rewrite at_flat by auto. destruct (n1_positive _); unfold value; destruct (_ <=? _); auto; symmetry; apply (at_flat g'); auto.
    + unfold n1_positive. cbn [lane]. 
      assert (M : 0 <= (r - 2) mod 4294967296 < 4294967296) by (apply Z.mod_pos_bound; lia).
      destruct (0 <? (r - 3) * 4294967296 + (r - 2) mod 4294967296) eqn:E.
      * rewrite value_le; [reflexivity|]. unfold r in *. lia.
      * rewrite value_gt; [reflexivity|]. unfold r in *. lia.
Qed.
Lemma inv8_react o g m : inv8 o g -> (match m with Ramp _ n => -2147483600 <= n < 2147483648 | _ => True end) ->
  (match m with Jump _ => True | _ => from g = to g \/ ~ (3 <= len g - pos g < 8) end) ->
  match op_of (Message m) with LMsg m' => inv8 (line8_message o m') (react 8 g m) | LBlock => False end.
Proof.
  intros I H C. destruct m as [t n|v|]; cbn [op_of line8_message react].
  - rewrite (inv8_now o g I C). rewrite !s32_id by lia.
    pose proof (I8Ramp {| from := now 8 g; to := t; len := n; pos := 0 |}) as R. cbn [len pos to] in R. cbv zeta in R.
    rewrite !Z.sub_0_r in R. specialize (R ltac:(lia) ltac:(lia)).
    unfold at_, slope in R. cbn [from to len] in R. 
    match goal with |- inv8 ?a ?g => match type of R with inv8 ?b g => replace a with b; [exact R|] end end.
    rewrite !Z.add_0_l. f_equal. f_equal; f_equal; unfold Rdiv; ring.
  - apply I8Flat.
  - rewrite (inv8_now o g I C). apply I8Flat.
Qed.
Lemma inv8_block o g : inv8 o g -> -2147483648 <= len g - (pos g + 8) - 8 -> len g - pos g < 2147483648 ->
  inv8 (fst (line8_f o)) (advance 8 g) /\
  list8 (snd (line8_f o)) = map (fun i => value g (pos g + Z.of_nat i)) (seq 0 8).
Proof.
  intros [n v l p | g' r H1 H2] B1 B2.
  - split.
    + cbn. unfold set1, set1_8. rewrite !Rplus_0_r. apply (I8Flat (sub4 (sub4 n)) v l (p + 8)).
    + cbn [seq map]. rewrite !value_flat. destruct n as [n0 n1 n2 n3].
      cbn [line8_f l8_n l8_t l8_x set1_8 sub4 neg4 map4 snd list8 list4 select4 set1 blend lane app].
      repeat match goal with |- context [if ?b then v else v] => replace (if b then v else v) with v by (destruct b; reflexivity) end. reflexivity.
  - split.
    + cbn [line8_f fst sub4 map4 l8_n l8_x l8_m l8_t]. rewrite !s32_id by (rewrite ?s32_id by lia; lia). pose proof (I8Ramp (advance 8 g')) as R. cbn [len pos advance to] in R. cbv zeta in R.
      specialize (R ltac:(lia) ltac:(lia)).
      match goal with |- inv8 ?a ?g => match type of R with inv8 ?b g => replace a with b; [exact R|] end end.
      unfold r. f_equal; [f_equal; lia|]. unfold at_, slope, advance, set1, set1_8, map2_8, map2_4; cbn [from to len]. rewrite !plus_IZR.
      unfold set1. f_equal; repeat match goal with
        | |- V8 _ _ = V8 _ _ => f_equal
        | |- V4 _ _ _ _ = V4 _ _ _ _ => f_equal
        end; ring.
    + cbn [seq map]. cbn [line8_f l8_n l8_t l8_x set1_8 sub4 neg4 map4 snd list8 list4 select4 set1 blend lane app Z.of_nat Pos.of_succ_nat Pos.succ].
      rewrite !s32_id by lia. unfold r. 
      assert (V : forall j k, j = len g' - pos g' - k -> (if (j <? 0) then to g' else at_ g' (pos g' + k)) = value g' (pos g' + k)).
      { intros j k ->. destruct (len g' - pos g' - k <? 0) eqn:E; [rewrite value_gt by lia | rewrite value_le by lia]; reflexivity. }
      rewrite !V by lia. pose proof (V (len g' - pos g') 0 ltac:(lia)) as V0. rewrite Z.add_0_r in *. rewrite V0. reflexivity.
Qed.
Lemma line8_sim ops : forall o g, inv8 o g -> 0 <= pos g -> len g < 2147483648 -> not_too_long 8 8 g ops -> calm g ops ->
  line8_run o (map op_of ops) = output 8 8 g ops.
Proof.
  induction ops as [|e ops IH]; intros o g I P L H C; [reflexivity|]. destruct e as [|m].
  - cbn [map op_of line8_run output]. destruct H as [H1 H2].
    destruct (inv8_block o g I H1 ltac:(lia)) as [I' E]. destruct (line8_f o) as [o' out]. cbn [fst snd] in *.
    rewrite E. f_equal. apply IH; auto; cbn; lia.
  - destruct H as [H1 H2], C as [C1 C2]. pose proof (inv8_react o g m I H1 C1) as R. cbn [map output].
    destruct (op_of (Message m)) as [|m'] eqn:E; [contradiction|]. cbn [line8_run]. apply IH; auto.
    + destruct m; cbn; lia. + destruct m; cbn; lia.
Qed.

(** ** The segment itself *)
(** It starts at [from], ends exactly on [to] after [len] samples, stays there, and in between
    advances by the same amount every sample and never leaves the interval. *)
Theorem line_segment_shape : forall g, 0 < len g ->
  value g 0 = from g /\
  (forall k, len g <= k -> value g k = to g) /\
  (forall k, 0 <= k < len g -> (value g (k + 1) - value g k = (to g - from g) / IZR (len g))%R) /\
  (forall k, 0 <= k -> (Rmin (from g) (to g) <= value g k <= Rmax (from g) (to g))%R).
Proof.
  intros [a b n p] H. cbn [from to len] in *.
  assert (N : (0 < IZR n)%R) by (apply IZR_lt; lia). assert (E : (IZR n * ((b - a) / IZR n) = b - a)%R) by (field; lra).
  assert (V : forall k, n <= k -> value {| from := a; to := b; len := n; pos := p |} k = b).
  { intros k K. unfold value; cbn [from to len]. destruct (k <=? n) eqn:C; [|reflexivity]. replace k with n by lia. lra. }
  split; [|split; [exact V|split]].
  - unfold value; cbn [from to len]. replace (0 <=? n) with true by lia. lra.
  - intros k K. unfold value; cbn [from to len]. replace (k + 1 <=? n) with true by lia. replace (k <=? n) with true by lia.
    rewrite plus_IZR. lra.
  - intros k K. destruct (Z.le_gt_cases n k) as [C|C].
    + rewrite V by lia. split; [apply Rmin_r|apply Rmax_r].
    + unfold value; cbn [from to len]. replace (k <=? n) with true by lia.
      assert (K0 : (0 <= IZR k)%R) by (apply IZR_le; lia). assert (K1 : (IZR k < IZR n)%R) by (apply IZR_lt; lia).
      set (s := ((b - a) / IZR n)%R) in *. clearbody s. clear V. assert (b = a + IZR n * s)%R as -> by lra.
      unfold Rmin, Rmax. destruct (Rle_dec _ _) as [D|D].
      * assert (0 <= s)%R by (destruct (Rle_lt_dec 0 s); auto; nra). split; nra.
      * assert (s < 0)%R by (destruct (Rle_lt_dec 0 s); auto; exfalso; apply D; nra). split; nra.
Qed.

(** ** The three builds *)
Theorem line_sse_neon : forall ops, not_too_long 4 4 (constant 0) ops ->
  line4_run line4_init (map op_of ops) = output 4 4 (constant 0) ops.
Proof. intros ops H. apply line4_sim; auto; cbn; try lia. apply (I4Flat (set1 0) 0%R 0 0). Qed.
Theorem line_scalar : forall ops, not_too_long 1 1 (constant 0) ops ->
  line1_run line1_init (map op_of ops) = Ok (output 1 1 (constant 0) ops).
Proof. intros ops H. apply line1_sim; auto. apply (I1Flat 0 0%R 0 0); lia. Qed.
(** Missing: messages that arrive when 3 to 7 samples of a ramp remain ([line_avx_overshoot_refuted]). *)
Theorem line_avx_calm : forall ops, not_too_long 8 8 (constant 0) ops -> calm (constant 0) ops ->
  line8_run line8_init (map op_of ops) = output 8 8 (constant 0) ops.
Proof. intros ops H C. apply line8_sim; auto; cbn; try lia. apply (I8Flat (set1 0) 0%R 0 0). Qed.

(** ** Where it goes wrong *)
Lemma s32_sub a k : s32 (s32 a - k) = s32 (a - k).
Proof. unfold s32. replace ((a + 2147483648) mod 4294967296 - 2147483648 - k + 2147483648) with ((a + 2147483648) mod 4294967296 - k) by lia.
  rewrite Zminus_mod_idemp_l. f_equal. f_equal. lia. Qed.
Lemma some_nat z : 0 <= z -> exists B, Z.of_nat B = z.
Proof. intro H. exists (Z.to_nat z). apply Z2Nat.id. exact H. Qed.
Lemma line4_long B : forall o g n1 n2 n3 x1 x2 x3, l4_m o = set1 (4 * slope g)%R -> l4_t o = set1 (to g) ->
  l4_n o = V4 (s32 (len g - pos g)) n1 n2 n3 -> l4_x o = V4 (at_ g (pos g)) x1 x2 x3 ->
  nth (4 * B) (line4_run o (repeat LBlock (S B))) 0%R =
  if s32 (len g - pos g - 4 * Z.of_nat B) <? 0 then to g else at_ g (pos g + 4 * Z.of_nat B).
Proof.
  induction B as [|B IH]; intros [n x m t] g n1 n2 n3 x1 x2 x3; cbn [l4_n l4_x l4_m l4_t]; intros -> -> -> ->.
  - cbn [Nat.mul repeat line4_run line4_f l4_n l4_x l4_m l4_t]. rewrite Z.mul_0_r, Z.sub_0_r, Z.add_0_r. reflexivity.
  - replace (4 * S B)%nat with (4 + 4 * B)%nat by lia.
    replace (repeat LBlock (S (S B))) with (LBlock :: repeat LBlock (S B)) by reflexivity.
    change (line4_run ?o (LBlock :: ?l)) with (list4 (snd (line4_f o)) ++ line4_run (fst (line4_f o)) l).
    replace (nth (4 + 4 * B) (list4 (snd (line4_f {| l4_n := V4 (s32 (len g - pos g)) n1 n2 n3; l4_x := V4 (at_ g (pos g)) x1 x2 x3;
       l4_m := set1 (4 * slope g)%R; l4_t := set1 (to g) |})) ++ line4_run (fst (line4_f {| l4_n := V4 (s32 (len g - pos g)) n1 n2 n3; l4_x := V4 (at_ g (pos g)) x1 x2 x3;
       l4_m := set1 (4 * slope g)%R; l4_t := set1 (to g) |})) (repeat LBlock (S B))) 0%R)
      with (nth (4 * B) (line4_run (fst (line4_f {| l4_n := V4 (s32 (len g - pos g)) n1 n2 n3; l4_x := V4 (at_ g (pos g)) x1 x2 x3;
       l4_m := set1 (4 * slope g)%R; l4_t := set1 (to g) |})) (repeat LBlock (S B))) 0%R) by (cbn [line4_f snd list4 select4 neg4 map4 blend l4_n l4_x l4_t app nth Nat.add]; reflexivity).
    rewrite (IH _ (advance 4 g) (s32 (n1 - 4)) (s32 (n2 - 4)) (s32 (n3 - 4)) (x1 + 4 * slope g)%R (x2 + 4 * slope g)%R (x3 + 4 * slope g)%R).
    + cbn [advance len pos to]. change (at_ (advance 4 g)) with (at_ g). 
      replace (len g - (pos g + 4) - 4 * Z.of_nat B) with (len g - pos g - 4 * Z.of_nat (S B)) by lia.
      replace (pos g + 4 + 4 * Z.of_nat B) with (pos g + 4 * Z.of_nat (S B)) by lia. reflexivity.
    + reflexivity. + reflexivity.
    + cbn [line4_f fst l4_n sub4 map4 advance len pos]. rewrite s32_sub. do 2 f_equal. lia.
    + cbn [line4_f fst l4_x l4_m sub4 map4 advance pos set1 map2_4]. f_equal. unfold at_. change (slope (advance 4 g)) with (slope g). change (from (advance 4 g)) with (from g).
      rewrite plus_IZR. ring.
Qed.
(** A ramp from 0 to 1 in four samples, then nothing but rendering: after 2^31 + 8 samples (12.4
    hours at 48 kHz) the output is no longer 1 but 2^29 + 2. *)
Theorem line_hold_refuted : exists B,
  nth (4 * B) (line4_run line4_init (LMsg (MRamp 1 4) :: repeat LBlock (S B))) 0%R = IZR 536870914 /\
  value {| from := 0; to := 1; len := 4; pos := 0 |} (4 * Z.of_nat B) = 1%R.
Proof.
  destruct (some_nat 536870914 ltac:(lia)) as [B EZ]. exists B. split.
  - cbn [line4_run].
    pose proof (line4_long B (line4_message line4_init (MRamp 1 4)) {| from := 0; to := 1; len := 4; pos := 0 |}) as L.
    assert (C : cur4 line4_init = 0%R) by reflexivity.
    unfold line4_message in L |- *. rewrite C in L |- *.
    assert (S : slope {| from := 0; to := 1; len := 4; pos := 0 |} = (/4)%R) by (unfold slope; cbn [from to len]; lra).
    erewrite L; cbn [l4_m l4_t l4_n l4_x to len pos].
    + rewrite EZ. change (s32 (4 - 0 - 4 * 536870914) <? 0) with false. unfold at_. rewrite S. cbn [from].
      rewrite Z.add_0_l. replace (4 * 536870914) with 2147483656 by lia. lra.
    + rewrite S. unfold set1. f_equal; lra.
    + reflexivity.
    + rewrite Z.sub_0_r. reflexivity.
    + unfold at_. rewrite Rmult_0_l, Rplus_0_r. reflexivity.
  - rewrite EZ. unfold value. cbn [len to]. reflexivity.
Qed.
(** Scalar build: rendering for more than 2^31 samples, with no message at all, overflows the counter. *)
Theorem line_scalar_overflow_refuted : exists B, line1_run line1_init (repeat LBlock B) = UB.
Proof.
  assert (G : forall B o, l1_n o - Z.of_nat B < -2147483648 -> -2147483648 <= l1_n o -> line1_run o (repeat LBlock B) = UB).
  { induction B as [|B IH]; intros o H L; [lia|]. cbn [repeat line1_run]. unfold line1_f.
    destruct (-2147483648 <=? l1_n o - 1) eqn:E; [|reflexivity]. cbn [obind]. rewrite IH; [reflexivity| cbn; lia | cbn; lia]. }
  destruct (some_nat 2147483649 ltac:(lia)) as [B EB]. exists B. apply G; cbn; lia.
Qed.

(** A message does not continue from where the output is but from one block (one sample, scalar)
    ahead: three messages without any rendering in between move the output. *)
Theorem line_restart_refuted :
  firstn 1 (line4_run line4_init [LMsg (MRamp 1 8); LMsg MStop; LBlock]) = [(1/2)%R] /\
  line1_run line1_init [LMsg (MRamp 1 8); LMsg MStop; LBlock] = Ok [(1/8)%R].
Proof.
  split.
  - cbn. f_equal. lra.
  - cbn. do 2 f_equal. lra.
Qed.
(** AVX: a stop right after a four-sample ramp from 0 to 1 was requested leaves the output at 2. *)
Theorem line_avx_overshoot_refuted :
  line8_run line8_init [LMsg (MRamp 1 4); LMsg MStop; LBlock] = repeat 2%R 8.
Proof. cbn. unfold n1_positive. cbn. repeat (f_equal; [lra|]). f_equal; lra. Qed.

(** Hypotheses are met by a session with ramps, stops and jumps. *)
Example line_session_ok : not_too_long 4 4 (constant 0) [Message (Ramp 1 8); Render; Message Stop; Render; Message (Jump 5); Message (Ramp 0 100); Render]
  /\ not_too_long 1 1 (constant 0) [Message (Ramp 1 8); Render; Message Stop; Render]
  /\ not_too_long 8 8 (constant 0) [Message (Ramp 1 16); Render; Message (Ramp 0 4); Render; Render; Message Stop]
  /\ calm (constant 0) [Message (Ramp 1 16); Render; Message (Ramp 0 4); Render; Render; Message Stop].
Proof. cbn. repeat split; try lia; right; lia. Qed.

Print Assumptions line_sse_neon.
Print Assumptions line_hold_refuted.
Print Assumptions line_segment_shape.
Print Assumptions line_scalar.
Print Assumptions line_avx_calm.
Print Assumptions line_scalar_overflow_refuted.
Print Assumptions line_restart_refuted.
Print Assumptions line_avx_overshoot_refuted.
