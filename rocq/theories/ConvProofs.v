From Coq Require Import ZifyBool.
From Verif Require Import ConvModel ConvSpec EnvProofs.
From Coq Require Import Lia Ring.
Ltac Zify.zify_post_hook ::= idtac.

Lemma nth_error_firstn_skipn {X} (l : list X) h n k : (k < n)%nat -> nth_error (firstn n (skipn h l)) k = nth_error l (h + k).
Proof.
  revert l n k. induction h as [|h IH]; intros l n k H.
  - cbn [skipn Nat.add]. revert l k H. induction n as [|n IHn]; intros l k H; [lia|]. destruct l; [destruct k; reflexivity|]. destruct k; [reflexivity|]. cbn [firstn nth_error]. apply IHn. lia.
  - destruct l; [cbn [skipn Nat.add nth_error]; rewrite firstn_nil; destruct k; reflexivity|]. cbn [skipn Nat.add nth_error]. apply IH, H.
Qed.
Lemma list_ext {X} (a b : list X) : length a = length b -> (forall k, (k < length a)%nat -> nth_error a k = nth_error b k) -> a = b.
Proof.
  revert b. induction a as [|x a IH]; intros [|y b] HL H; try discriminate; [reflexivity|]. pose proof (H O ltac:(cbn; lia)) as H0. cbn in H0. injection H0 as <-. f_equal. apply IH; [now injection HL|].
  intros k Hk. apply (H (S k)). cbn. lia.
Qed.
Lemma nth_error_map_seq {X} (f : nat -> X) n k : (k < n)%nat -> nth_error (map f (seq 0 n)) k = Some (f k).
Proof. intros H. erewrite map_nth_error; [reflexivity|]. rewrite nth_error_nth' with (d := O) by (rewrite seq_length; exact H). rewrite seq_nth by exact H. reflexivity. Qed.
Lemma load_ok {A} (mem : list (option A)) h n (f : nat -> A) : 0 <= h -> 0 <= n -> h + n <= zlen mem ->
  (forall k, (k < Z.to_nat n)%nat -> nth_error mem (Z.to_nat h + k) = Some (Some (f k))) -> load mem h n = Ok (map f (seq 0 (Z.to_nat n))).
Proof.
  intros H0 Hn HL H. unfold load. rewrite read_ok by assumption. cbn [obind].
  replace (firstn (Z.to_nat n) (skipn (Z.to_nat h) mem)) with (map Some (map f (seq 0 (Z.to_nat n)))); [apply loaded_some|].
  symmetry. apply list_ext.
  - rewrite !map_length, seq_length, firstn_length, skipn_length. unfold zlen in HL. lia.
  - intros k Hk. rewrite firstn_length in Hk. rewrite nth_error_firstn_skipn by lia. rewrite map_map, nth_error_map_seq by lia. apply H. lia.
Qed.
Lemma lanes_land_low b x : 0 <= x -> x mod lanes b = 0 -> Z.land x (lanes b - 1) = 0.
Proof.
  intros Hx H. assert (E : exists k, 0 <= k /\ lanes b = 2 ^ k) by (destruct b; [exists 0|exists 2|exists 2|exists 3]; split; reflexivity || lia).
  destruct E as (k & Hk & E). rewrite E in *. replace (2 ^ k - 1) with (Z.ones k) by (rewrite Z.ones_equiv; lia). rewrite Z.land_ones by exact Hk. exact H.
Qed.
Lemma map2_maps {X Y Z' I} (f : X -> Y -> Z') (g : I -> X) (h : I -> Y) l : map2 f (map g l) (map h l) = map (fun i => f (g i) (h i)) l.
Proof. induction l as [|i l IH]; [reflexivity|]. cbn [map]. rewrite map2_cons, IH. reflexivity. Qed.

Section Conv.
Context {A : Type} (zero one : A) (add mul sub : A -> A -> A) (opp : A -> A).
Hypothesis Rth : ring_theory zero one add mul sub opp (@eq A).
Add Ring Cring : Rth.
Context (b : build).
Hypothesis Hb : b <> B_AVX.
Notation N := (lanes b).
Notation NN := (Z.to_nat (lanes b)).

Definition sumn (f : nat -> A) (n : nat) : A := fold_right add zero (map f (seq 0 n)).
Lemma sumn_S f n : sumn f (S n) = add (f O) (sumn (fun k => f (S k)) n).
Proof. unfold sumn. cbn [seq map fold_right]. rewrite <- seq_shift, map_map. reflexivity. Qed.
Lemma sumn_app f a : forall c, sumn f (a + c) = add (sumn f a) (sumn (fun k => f (a + k)%nat) c).
Proof.
  revert f. induction a as [|a IH]; intros f c.
  - change (sumn f c = add zero (sumn f c)). ring.
  - cbn [Nat.add]. rewrite !sumn_S, IH. cbn [Nat.add]. ring.
Qed.
Lemma sumn_ext f g n : (forall k, (k < n)%nat -> f k = g k) -> sumn f n = sumn g n.
Proof. intros H. unfold sumn. f_equal. apply map_ext_in. intros k Hk. apply in_seq in Hk. apply H. lia. Qed.

Lemma kernel_ok (y : nat -> A) (c : list A) : zlen c = N ->
  sConv_kernel zero add mul b (map (fun l => y (NN + l)%nat) (seq 0 NN)) (map y (seq 0 NN)) c =
  Ok (map (fun l => sumn (fun k => mul (nth k c zero) (y (NN + l - k)%nat)) NN) (seq 0 NN)).
Proof.
  intros Hc. unfold zlen in Hc. destruct b; [..|congruence]; cbn [lanes] in *.
  - change (Z.to_nat 1) with 1%nat. cbn. do 2 f_equal. ring.
  - change (Z.to_nat 4) with 4%nat. do 5 (destruct c as [|? c]; cbn [length] in Hc; try lia). cbn. f_equal. do 3 (f_equal; [ring|]). f_equal. ring.
  - change (Z.to_nat 4) with 4%nat. do 5 (destruct c as [|? c]; cbn [length] in Hc; try lia). cbn. f_equal. do 3 (f_equal; [ring|]). f_equal. ring.
Qed.

(** The stream up to and including the current vector; time T is its first sample. *)
Context (xs : list A) (T : Z) (cs : list A) (coeffs mem : list (option A)) (m : Z).
Notation s := (sample zero xs).
Notation n := (zlen cs).
Hypothesis Hm : n = m.
Hypothesis Hn0 : N <= n.
Hypothesis Hnm : n mod N = 0.
Hypothesis HTm : T mod N = 0.
Hypothesis Hcs : firstn (length cs) coeffs = map Some cs.
Hypothesis Hring : forall d, 1 <= d <= m -> nth_error mem (Z.to_nat ((T - d) mod m)) = Some (Some (s (T - d))).

Definition blk (t : Z) : list A := map (fun l => s (t + Z.of_nat l)) (seq 0 NN).
Definition F (i : Z) (l : nat) : A := sumn (fun k => mul (nth k cs zero) (s (T + Z.of_nat l - Z.of_nat k))) (Z.to_nat i).

Lemma mem_len : m <= zlen mem.
Proof.
  pose proof (lanes_pos b). assert (E : exists d, 1 <= d <= m /\ (T - d) mod m = m - 1).
  { exists ((T - m) mod m + 1). pose proof (Z.mod_pos_bound (T - m) m ltac:(lia)). split; [lia|]. rewrite Z.sub_add_distr. rewrite Zminus_mod, (Zminus_mod T). rewrite Zmod_mod.
    replace ((T - m) mod m) with (T mod m) by (rewrite <- (Z_mod_plus_full T (-1) m); f_equal; lia). rewrite Z.sub_diag, Z.mod_0_l by lia.
    destruct (Z.eq_dec m 1) as [->|]; [reflexivity|]. rewrite (Z.mod_small 1) by lia. symmetry. apply Z.mod_unique with (-1); lia. }
  destruct E as (d & Hd & E). pose proof (Hring d Hd) as H1. rewrite E in H1. assert (nth_error mem (Z.to_nat (m - 1)) <> None) as H2 by congruence. apply nth_error_Some in H2. unfold zlen. lia.
Qed.
Lemma mult_gap a c : a mod N = 0 -> c mod N = 0 -> a < c -> a + N <= c.
Proof.
  intros H1 H2 H. pose proof (lanes_pos b). apply Z_div_exact_full_2 in H1; [|lia]. apply Z_div_exact_full_2 in H2; [|lia].
  assert (a / N < c / N) by (apply Z.mul_lt_mono_pos_l with N; lia). nia.
Qed.
Lemma modN a k : a mod N = 0 -> k mod N = 0 -> (a - k) mod N = 0.
Proof. intros H1 H2. rewrite Zminus_mod, H1, H2. apply Z.mod_0_l. pose proof (lanes_pos b). lia. Qed.
Lemma mod_m a : a mod N = 0 -> (a mod m) mod N = 0.
Proof. intros H. pose proof (lanes_pos b). rewrite (Z.mod_eq a m) by lia. apply modN; [exact H|]. rewrite Z.mul_mod, <- Hm, Hnm by lia. rewrite Z.mul_0_l. apply Z.mod_0_l. lia. Qed.

Lemma load_past i h : 0 <= i -> i + N <= n -> i mod N = 0 -> h = (T - i - N) mod m -> load mem h N = Ok (blk (T - i - N)).
Proof.
  intros H0 H1 Hi Eh. pose proof (lanes_pos b). pose proof (Z.mod_pos_bound (T - i - N) m ltac:(lia)) as B.
  assert (HN : N mod N = 0) by apply Z_mod_same_full. assert (HhN : h mod N = 0) by (subst h; apply mod_m; auto using modN).
  assert (HG : h + N <= m) by (apply mult_gap; [exact HhN|rewrite <- Hm; exact Hnm|lia]). pose proof mem_len.
  unfold blk. apply load_ok; try lia. intros k Hk. replace (T - i - N + Z.of_nat k) with (T - (i + N - Z.of_nat k)) by lia. rewrite <- Hring by lia. f_equal.
  assert (E : (T - (i + N - Z.of_nat k)) mod m = h + Z.of_nat k).
  { replace (T - (i + N - Z.of_nat k)) with (T - i - N + Z.of_nat k) by lia. rewrite <- Zplus_mod_idemp_l, <- Eh. apply Z.mod_small. lia. }
  rewrite E. lia.
Qed.
Lemma coeffs_len : n <= zlen coeffs.
Proof. pose proof (f_equal (@length _) Hcs) as E. rewrite firstn_length, map_length in E. unfold zlen. lia. Qed.
Lemma load_coeffs i : 0 <= i -> i + N <= n -> load coeffs i N = Ok (map (fun k => nth (Z.to_nat i + k) cs zero) (seq 0 NN)).
Proof.
  intros H0 H1. pose proof (lanes_pos b). pose proof coeffs_len. apply load_ok; try lia. intros k Hk. unfold zlen in *.
  change (nth_error coeffs (0 + (Z.to_nat i + k)) = Some (Some (nth (Z.to_nat i + k) cs zero))).
  rewrite <- (nth_error_firstn_skipn coeffs 0 (length cs) (Z.to_nat i + k)) by lia. cbn [skipn]. rewrite Hcs.
  erewrite map_nth_error; [reflexivity|]. apply nth_error_nth'. lia.
Qed.
Lemma tap_ok i h : 0 <= i -> i + N <= n -> i mod N = 0 -> h = (T - i - N) mod m ->
  tap zero add mul b coeffs mem i h (blk (T - i)) (map (F i) (seq 0 NN)) = Ok (blk (T - (i + N)), map (F (i + N)) (seq 0 NN)).
Proof.
  intros H0 H1 Hi Eh. pose proof (lanes_pos b). unfold tap. rewrite (load_past i h) by assumption. cbn [obind]. rewrite load_coeffs by assumption. cbn [obind].
  set (y := fun j => s (T - i - N + Z.of_nat j)).
  assert (E1 : blk (T - i) = map (fun l => y (NN + l)%nat) (seq 0 NN)) by (unfold blk, y; apply map_ext; intros l; f_equal; lia).
  assert (E2 : blk (T - i - N) = map y (seq 0 NN)) by reflexivity.
  rewrite E1, E2, kernel_ok by (unfold zlen; rewrite map_length, seq_length; lia). cbn [obind]. do 2 f_equal.
  - rewrite <- E2. f_equal. lia.
  - rewrite map2_maps. apply map_ext_in. intros l Hl. apply in_seq in Hl. unfold F. rewrite Z2Nat.inj_add by lia. rewrite sumn_app.
    rewrite (sumn_ext (fun k => mul (nth k _ zero) (y (NN + l - k)%nat)) (fun k => mul (nth (Z.to_nat i + k) cs zero) (s (T + Z.of_nat l - Z.of_nat (Z.to_nat i + k))))).
    + ring.
    + intros k Hk. f_equal.
      * rewrite nth_error_nth with (x := nth (Z.to_nat i + k) cs zero); [reflexivity|]. apply nth_error_map_seq with (f := fun k => nth (Z.to_nat i + k) cs zero). exact Hk.
      * unfold y. f_equal. lia.
Qed.
Lemma step_mod i h : h = (T - i - N) mod m -> 0 <= h - N -> h - N = (T - (i + N) - N) mod m.
Proof.
  intros E H. pose proof (lanes_pos b). pose proof (Z.mod_pos_bound (T - i - N) m ltac:(lia)). replace (T - (i + N) - N) with (T - i - N - N) by lia. rewrite <- Zminus_mod_idemp_l, <- E. symmetry. apply Z.mod_small. lia.
Qed.
Lemma mod_step i : i mod N = 0 -> (i + N) mod N = 0.
Proof. intros H. pose proof (lanes_pos b). rewrite <- (Z_mod_plus_full i 1 N) in H. rewrite Z.mul_1_l in H. exact H. Qed.
Lemma loop1_ok : forall k i h, 0 <= i -> i mod N = 0 -> h mod N = 0 -> - N <= h -> i + h + N <= n -> h + 1 <= Z.of_nat k -> (0 <= h -> h = (T - i - N) mod m) ->
  loop1 zero add mul b coeffs mem k i h (blk (T - i)) (map (F i) (seq 0 NN)) = Ok (i + h + N, - N, blk (T - (i + h + N)), map (F (i + h + N)) (seq 0 NN)).
Proof.
  pose proof (lanes_pos b) as LP. assert (BASE : forall (i h : Z), h mod N = 0 -> - N <= h -> h < 0 -> h = - N).
  { intros _ h H1 H2 H3. pose proof (mult_gap h 0 H1 ltac:(apply Z.mod_0_l; lia) H3). lia. }
  induction k as [|k IH]; intros i h H0 Hi Hh Hl Hu Hk Hp; cbn [loop1].
  - rewrite (BASE i h Hh Hl ltac:(lia)) in *. replace (i + - N + N) with i by lia. reflexivity.
  - destruct (Z.leb_spec 0 h) as [G|G].
    + rewrite tap_ok by (auto with zarith). cbn [obind]. rewrite IH.
      * replace (i + N + (h - N) + N) with (i + h + N) by lia. reflexivity.
      * lia.
      * apply mod_step, Hi.
      * apply modN; [exact Hh|apply Z_mod_same_full].
      * lia.
      * lia.
      * lia.
      * intros Q. apply step_mod; auto.
    + rewrite (BASE i h Hh Hl ltac:(lia)) in *. replace (i + - N + N) with i by lia. reflexivity.
Qed.
Lemma loop2_ok : forall k i h, 0 <= i <= n -> i mod N = 0 -> n - i <= Z.of_nat k -> (i < n -> h = (T - i - N) mod m /\ n - N - i <= h) ->
  loop2 zero add mul b coeffs mem n k i h (blk (T - i)) (map (F i) (seq 0 NN)) = Ok (map (F n) (seq 0 NN)).
Proof.
  pose proof (lanes_pos b) as LP. induction k as [|k IH]; intros i h H0 Hi Hk Hp; cbn [loop2].
  - replace i with n by lia. reflexivity.
  - destruct (Z.ltb_spec i n) as [G|G]; [|replace i with n by lia; reflexivity]. destruct (Hp G) as (E & Hlow). pose proof (mult_gap i n Hi Hnm G).
    rewrite tap_ok by (auto with zarith). cbn [obind]. apply IH; [lia|apply mod_step, Hi|lia|]. intros Q. split; [|lia]. apply step_mod; [exact E|]. pose proof (mult_gap (i + N) n (mod_step i Hi) Hnm Q). lia.
Qed.
End Conv.
