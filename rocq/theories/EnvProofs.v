From Coq Require Import ZifyBool.
From Verif Require Import EnvModel EnvSpec.

Section Lists.
Context {A : Type}.
Lemma loaded_some (l : list A) : loaded (map Some l) = Ok l.
Proof. induction l as [|x l IH]; [reflexivity|]. cbn [map loaded]. rewrite IH. reflexivity. Qed.
Lemma read_ok (m : list (option A)) from n : 0 <= from -> 0 <= n -> from + n <= zlen m -> read_cells m from n = Ok (firstn (Z.to_nat n) (skipn (Z.to_nat from) m)).
Proof. intros. unfold read_cells. replace ((0 <=? from) && (0 <=? n) && (from + n <=? zlen m)) with true by lia. reflexivity. Qed.
Lemma write_ok (m d : list (option A)) from : 0 <= from -> from + zlen d <= zlen m -> write_cells m from d = Ok (firstn (Z.to_nat from) m ++ d ++ skipn (Z.to_nat (from + zlen d)) m).
Proof. intros. unfold write_cells. replace ((0 <=? from) && (from + zlen d <=? zlen m)) with true by lia. reflexivity. Qed.
Lemma zlen_app (a b : list A) : zlen (a ++ b) = zlen a + zlen b.
Proof. unfold zlen. rewrite app_length. lia. Qed.
Lemma firstn_app_le n (a b : list A) : (n <= length a)%nat -> firstn n (a ++ b) = firstn n a.
Proof. intros H. rewrite firstn_app. replace (n - length a)%nat with O by lia. cbn [firstn]. apply app_nil_r. Qed.
Lemma firstn_skipn_split n k (l : list A) : (k <= n)%nat -> firstn (n - k) (skipn k l) = skipn k (firstn n l).
Proof. intros H. rewrite skipn_firstn_comm. reflexivity. Qed.
Lemma skipn_add n k : forall l : list A, skipn n (skipn k l) = skipn (k + n) l.
Proof. induction k as [|k IH]; intros l; [reflexivity|]. destruct l; [rewrite !skipn_nil; reflexivity|]. cbn [skipn Nat.add]. apply IH. Qed.
End Lists.

Lemma lanes_pos b : 0 < lanes b. Proof. destruct b; reflexivity. Qed.
Lemma lanes_land b x : 0 <= x -> x mod lanes b = 0 -> Z.land x (Z.lnot (lanes b - 1)) = x.
Proof.
  intros Hx H. rewrite <- Z.ldiff_land. assert (E : exists k, 0 <= k /\ lanes b = 2 ^ k) by (destruct b; [exists 0|exists 2|exists 2|exists 3]; split; reflexivity || lia).
  destruct E as (k & Hk & E). rewrite E in *. replace (2 ^ k - 1) with (Z.ones k) by (rewrite Z.ones_equiv; lia). rewrite Z.ldiff_ones_r by exact Hk.
  rewrite Z.shiftr_div_pow2, Z.shiftl_mul_pow2 by exact Hk. rewrite Z.mul_comm. apply Z_div_exact_full_2 in H; [|lia]. lia.
Qed.

Section Env.
Context {A : Type} (zero one : A) (add mul sub : A -> A -> A) (opp : A -> A).
Hypothesis Rth : ring_theory zero one add mul sub opp (@eq A).
Add Ring Aring : Rth.
Definition total (l : list A) : A := fold_right add zero l.
Notation sq l := (map (fun x => mul x x) l).

Lemma map2_length {X Y W} (f : X -> Y -> W) l l' : length (map2 f l l') = Nat.min (length l) (length l').
Proof. unfold map2. rewrite map_length. apply combine_length. Qed.
Lemma map2_cons {X Y W} (f : X -> Y -> W) a l b l' : map2 f (a :: l) (b :: l') = f a b :: map2 f l l'.
Proof. reflexivity. Qed.
Lemma map2_sq l : map2 mul l l = sq l.
Proof. induction l as [|x l IH]; [reflexivity|]. rewrite map2_cons, IH. reflexivity. Qed.
Lemma map2_app {X Y W} (f : X -> Y -> W) a : forall b c d, length a = length c -> map2 f (a ++ b) (c ++ d) = map2 f a c ++ map2 f b d.
Proof. induction a as [|x a IH]; intros b c d H; destruct c as [|y c]; try discriminate; [reflexivity|]. cbn [app]. rewrite !map2_cons. cbn [app]. f_equal. apply IH. injection H as H. exact H. Qed.
Lemma total_app a b : total (a ++ b) = add (total a) (total b).
Proof. induction a as [|x a IH]; [change (total b = add zero (total b)); ring|]. change (add x (total (a ++ b)) = add (add x (total a)) (total b)). rewrite IH. ring. Qed.
Lemma total_add a : forall b, length a = length b -> total (map2 add a b) = add (total a) (total b).
Proof.
  induction a as [|x a IH]; intros b H; destruct b as [|y b]; try discriminate; [cbn; ring|]. rewrite map2_cons. change (add (add x y) (total (map2 add a b)) = add (add x (total a)) (add y (total b))).
  rewrite IH by (injection H as H; exact H). ring.
Qed.
Lemma horizontal_total b s : zlen s = lanes b -> horizontal zero add b s = total s.
Proof.
  intros H. unfold zlen in H. destruct b; cbn [lanes] in H.
  - destruct s as [|a [|? ?]]; cbn [length] in H; try lia. cbn. ring.
  - do 5 (destruct s as [|? s]; cbn [length] in H; try lia). cbn. ring.
  - do 5 (destruct s as [|? s]; cbn [length] in H; try lia). cbn. ring.
  - do 9 (destruct s as [|? s]; cbn [length] in H; try lia). cbn. ring.
Qed.
Lemma total_zero k : total (repeat zero k) = zero.
Proof. induction k as [|k IH]; [reflexivity|]. change (add zero (total (repeat zero k)) = zero). rewrite IH. ring. Qed.
Lemma weighted_total w : forall xs, weighted zero add mul w xs = total (map2 mul (sq xs) w).
Proof.
  unfold weighted, total. induction w as [|h w IH]; intros xs; destruct xs as [|x xs]; try reflexivity. cbn [map]. rewrite !map2_cons. cbn [fold_right]. rewrite IH. ring.
Qed.

Lemma load_part (m : list (option A)) X k n : (k + n <= length X)%nat -> firstn (length X) m = map Some X -> load m (Z.of_nat k) (Z.of_nat n) = Ok (firstn n (skipn k X)).
Proof.
  intros H E. unfold load. rewrite read_ok; [|lia|lia|].
  - cbn [obind]. rewrite !Nat2Z.id. replace (firstn n (skipn k m)) with (map Some (firstn n (skipn k X))); [apply loaded_some|].
    rewrite <- firstn_map, <- skipn_map, <- E. rewrite <- (firstn_skipn_split (length X) k m) by lia. rewrite firstn_firstn. f_equal. lia.
  - unfold zlen. assert (L : length (firstn (length X) m) = length X) by (rewrite E, map_length; reflexivity). rewrite firstn_length in L. lia.
Qed.
Lemma load_weights (w : list A) k n : (k + n <= length w)%nat -> load (map Some w) (Z.of_nat k) (Z.of_nat n) = Ok (firstn n (skipn k w)).
Proof. intros H. apply load_part; [exact H|]. rewrite <- (map_length Some w) at 1. apply firstn_all. Qed.

Lemma vector_sum_ok n (o : env A) : forall k X sum, length X = (k * n)%nat -> firstn (length X) (e_buffer o) = map Some X -> (k * n <= length (e_weights o))%nat -> length sum = n ->
  exists s, vector_sum add mul (Z.of_nat n) o k sum = Ok s /\ length s = n /\ total s = add (total sum) (total (map2 mul X (firstn (k * n) (e_weights o)))).
Proof.
  induction k as [|k IH]; intros X sum HX HB HW HS.
  - destruct X; [|discriminate]. exists sum. split; [reflexivity|]. split; [exact HS|]. cbn. ring.
  - cbn [Nat.mul] in HX, HW. cbn [vector_sum].
    replace (Z.of_nat k * Z.of_nat n) with (Z.of_nat (k * n)) by lia.
    rewrite (load_part (e_buffer o) X) by (auto; lia). cbn [obind]. rewrite (load_weights (e_weights o)) by lia. cbn [obind].
    set (X1 := firstn (k * n) X). set (X2 := firstn n (skipn (k * n) X)).
    assert (EX : X = X1 ++ X2).
    { unfold X1, X2. rewrite (firstn_all2 (n := n) (skipn (k * n) X)) by (rewrite skipn_length; lia). symmetry. apply firstn_skipn. }
    assert (L1 : length X1 = (k * n)%nat) by (unfold X1; rewrite firstn_length; lia).
    assert (L2 : length X2 = n) by (unfold X2; rewrite firstn_length, skipn_length; lia).
    set (W2 := firstn n (skipn (k * n) (e_weights o))). assert (LW2 : length W2 = n) by (unfold W2; rewrite firstn_length, skipn_length; lia).
    assert (EW : firstn (n + k * n) (e_weights o) = firstn (k * n) (e_weights o) ++ W2).
    { unfold W2. rewrite (Nat.add_comm n). rewrite <- (firstn_skipn (k * n) (e_weights o)) at 1. rewrite firstn_app. rewrite firstn_length.
      rewrite firstn_firstn. replace (Nat.min (k * n + n) (k * n)) with (k * n)%nat by lia. f_equal. f_equal. lia. }
    destruct (IH X1 (map2 add sum (map2 mul X2 W2))) as (s & E & Ls & T).
    + exact L1.
    + rewrite L1. rewrite EX, map_app in HB. assert (HB2 := f_equal (firstn (k * n)) HB). rewrite firstn_firstn in HB2. rewrite app_length in HB2.
      replace (Nat.min (k * n) (length X1 + length X2)) with (k * n)%nat in HB2 by lia. rewrite HB2. rewrite firstn_app_le by (rewrite map_length; lia).
      rewrite firstn_all2; [reflexivity|]. rewrite map_length. lia.
    + lia.
    + rewrite !map2_length. lia.
    + exists s. split; [exact E|]. split; [exact Ls|]. rewrite T, total_add by (rewrite map2_length; lia). cbn [Nat.mul].
      rewrite EW. rewrite EX. rewrite map2_app by (rewrite firstn_length; lia). rewrite total_app. ring.
Qed.
Lemma scalar_sum_ok (o : env A) X : firstn (length X) (e_buffer o) = map Some X -> (length X <= length (e_weights o))%nat ->
  forall k i sum, (i + k = length X)%nat -> scalar_sum zero add mul o (Z.of_nat i) k sum = Ok (add sum (total (map2 mul (skipn i X) (skipn i (e_weights o))))).
Proof.
  intros HB HW. induction k as [|k IH]; intros i sum Hk.
  - cbn [scalar_sum]. rewrite (skipn_all2 X) by lia. cbn. f_equal. ring.
  - cbn [scalar_sum]. change 1 with (Z.of_nat 1). rewrite (load_weights (e_weights o)) by lia. cbn [obind]. rewrite (load_part (e_buffer o) X) by (auto; lia). cbn [obind].
    replace (Z.of_nat i + Z.of_nat 1) with (Z.of_nat (Datatypes.S i)) by lia. rewrite IH by lia. f_equal.
    assert (D : forall l : list A, (i < length l)%nat -> exists x, skipn i l = x :: skipn (Datatypes.S i) l).
    { clear. induction i as [|i IH]; intros l H; destruct l as [|a l]; cbn [length] in H; try lia; [exists a; reflexivity|]. cbn [skipn]. apply IH. lia. }
    destruct (D X ltac:(lia)) as (x & Ex). destruct (D (e_weights o) ltac:(lia)) as (h & Eh). rewrite Ex, Eh. cbn [firstn hd]. rewrite map2_cons.
    set (T := map2 mul (skipn (Datatypes.S i) X) (skipn (Datatypes.S i) (e_weights o))). change (total (mul x h :: T)) with (add (mul x h) (total T)). ring.
Qed.
Lemma window_sum_ok b (o : env A) X : length X = Z.to_nat (e_window o) -> 0 <= e_window o -> e_window o mod lanes b = 0 -> firstn (length X) (e_buffer o) = map Some X ->
  length (e_weights o) = length X -> window_sum zero add mul b o = Ok (total (map2 mul X (e_weights o))).
Proof.
  intros HX H0 HM HB HW. unfold window_sum.
  assert (HV : (let! s := vector_sum add mul (lanes b) o (Z.to_nat (Z.land (e_window o) (Z.lnot (lanes b - 1)) / lanes b)) (repeat zero (Z.to_nat (lanes b))) in Ok (horizontal zero add b s)) = Ok (total (map2 mul X (e_weights o)))).
  { rewrite lanes_land by assumption. pose proof (lanes_pos b) as LP. set (n := Z.to_nat (lanes b)). replace (lanes b) with (Z.of_nat n) by lia.
    assert (EW : e_window o = lanes b * (e_window o / lanes b)) by (apply Z_div_exact_full_2; [lia|exact HM]).
    assert (HK : (Z.to_nat (e_window o / Z.of_nat n) * n)%nat = length X).
    { rewrite HX. replace (Z.of_nat n) with (lanes b) by lia. rewrite EW at 2. assert (0 <= e_window o / lanes b) by (apply Z.div_pos; lia). unfold n. rewrite Z2Nat.inj_mul by lia. lia. }
    destruct (vector_sum_ok n o (Z.to_nat (e_window o / Z.of_nat n)) X (repeat zero n)) as (s & E & Ls & T); [lia|exact HB|lia|apply repeat_length|].
    rewrite E. cbn [obind]. rewrite horizontal_total by (unfold zlen; lia). rewrite T, total_zero, HK, <- HW, firstn_all. f_equal. ring. }
  destruct b; [|exact HV..]. change 0 with (Z.of_nat 0). rewrite (scalar_sum_ok o X HB) by lia. cbn [skipn]. f_equal. ring.
Qed.
End Env.
