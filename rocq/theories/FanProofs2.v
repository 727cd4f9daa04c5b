(** unpack, route, select of any size. *)
From Verif Require Import PatchProofs PatchProofs2 FanSpec FanProofs.
From Coq Require Import Lia.
Open Scope Z_scope.

(** ** Lists of pairs *)
Lemma pairs_even {A B} (a b : A -> B) l : forall j, nth_error (flat_map (fun k => [a k; b k]) l) (2 * j) = option_map a (nth_error l j).
Proof. induction l as [| x l IH]; intros [| j]; try reflexivity. replace (2 * S j)%nat with (S (S (2 * j))) by lia. cbn [flat_map app nth_error]. apply IH. Qed.
Lemma pairs_odd {A B} (a b : A -> B) l : forall j, nth_error (flat_map (fun k => [a k; b k]) l) (S (2 * j)) = option_map b (nth_error l j).
Proof. induction l as [| x l IH]; intros [| j]; try reflexivity. replace (2 * S j)%nat with (S (S (2 * j))) by lia. cbn [flat_map app nth_error]. apply IH. Qed.
Lemma pairs_length {A B} (a b : A -> B) l : List.length (flat_map (fun k => [a k; b k]) l) = (2 * List.length l)%nat.
Proof. induction l as [| x l IH]; [reflexivity |]. cbn [flat_map app List.length]. rewrite IH. lia. Qed.
Lemma nth_seq i n j : (j < n)%nat -> nth_error (seq i n) j = Some (i + j)%nat.
Proof. intros H. rewrite (nth_error_nth' (seq i n) 0%nat) by (rewrite seq_length; exact H). rewrite seq_nth by exact H. reflexivity. Qed.
Lemma nth_rev_seq n j : (j < n)%nat -> nth_error (rev (seq 0 n)) j = Some (n - 1 - j)%nat.
Proof.
  intros H. rewrite (nth_error_nth' _ 0%nat) by (rewrite rev_length, seq_length; exact H). rewrite rev_nth by (rewrite seq_length; exact H).
  rewrite seq_length, seq_nth by lia. f_equal. lia.
Qed.
Lemma pick {A} (y : nat -> list A) k : forall n i, flat_map (fun j => if Nat.eqb j k then y j else []) (seq i n) = (if (i <=? k)%nat && (k <? i + n)%nat then y k else [])%bool.
Proof.
  induction n as [| n IH]; intros i; cbn [seq flat_map].
  - replace ((i <=? k)%nat && (k <? i + 0)%nat)%bool with false; [reflexivity |]. symmetry. destruct (Nat.leb_spec i k); [apply Nat.ltb_ge; lia | reflexivity].
  - rewrite IH. destruct (Nat.eqb_spec i k) as [-> | N].
    + replace ((S k <=? k)%nat) with false by (symmetry; apply Nat.leb_gt; lia). replace ((k <=? k)%nat) with true by (symmetry; apply Nat.leb_le; lia).
      replace ((k <? k + S n)%nat) with true by (symmetry; apply Nat.ltb_lt; lia). cbn [andb]. apply app_nil_r.
    + destruct (Nat.leb_spec i k); destruct (Nat.leb_spec (S i) k); try lia; cbn [andb app]; try reflexivity. replace (i + S n)%nat with (S i + n)%nat by lia. reflexivity.
Qed.
Lemma pick_in {A} (y : nat -> list A) k n : (k < n)%nat -> flat_map (fun j => if Nat.eqb j k then y j else []) (seq 0 n) = y k.
Proof. intros H. rewrite pick. replace ((k <? 0 + n)%nat) with true by (symmetry; apply Nat.ltb_lt; lia). reflexivity. Qed.
Lemma flat_none {A B} (f : A -> list B) l : (forall x, In x l -> f x = []) -> flat_map f l = [].
Proof. induction l as [| x l IH]; intros H; [reflexivity |]. cbn. rewrite H, IH; [reflexivity | intros; apply H; right; assumption | left; reflexivity]. Qed.
Lemma tasks_flat {A} (f : A -> list flat_conn) l n o m : tasks_of (flat_map f l) n o m = flat_map (fun x => tasks_of (f x) n o m) l.
Proof. induction l as [| x l IH]; [reflexivity |]. cbn [flat_map]. rewrite tasks_app, IH. reflexivity. Qed.
Lemma map_flat {A B C} (g : B -> C) (f : A -> list B) l : map g (flat_map f l) = flat_map (fun x => map g (f x)) l.
Proof. induction l as [| x l IH]; [reflexivity |]. cbn [flat_map]. rewrite map_app, IH. reflexivity. Qed.
Lemma simple_flat {A} (f : A -> list item) l : (forall x, forallb simple (f x) = true) -> forallb simple (flat_map f l) = true.
Proof. intros H. induction l as [| x l IH]; [reflexivity |]. cbn [flat_map]. rewrite forallb_app, H, IH. reflexivity. Qed.
Lemma ins_app l1 : forall l2 b, ins_of (l1 ++ l2) b = ins_of l1 b ++ ins_of l2 (b + List.length l1)%nat.
Proof.
  induction l1 as [| it l1 IH]; intros l2 b; cbn [app List.length]; [rewrite Nat.add_0_r; reflexivity |].
  replace (b + S (List.length l1))%nat with (S b + List.length l1)%nat by lia. destruct it; cbn [ins_of]; rewrite IH; reflexivity.
Qed.

(** ** unpack *)
Lemma unpack_parts_flat n : unpack_parts n = flat_map (fun k => [IObj (PSlice (Z.of_nat k) 1); IOut (Z.of_nat k)]) (rev (seq 0 n)).
Proof. induction n as [| n IH]; [reflexivity |]. rewrite seq_S, rev_app_distr. cbn [unpack_parts rev app flat_map Nat.add]. rewrite IH. reflexivity. Qed.
Definition unpack_pairs (a j : nat) : list flat_conn := [(0, 0, a + 2 * j, 0)%nat; (a + 2 * j, 0, S (a + 2 * j), 0)%nat].
Lemma unpack_conns_flat n : forall a, unpack_conns n a = flat_map (unpack_pairs a) (seq 0 n).
Proof.
  induction n as [| n IH]; intros a; [reflexivity |]. cbn [unpack_conns seq flat_map]. rewrite IH. unfold unpack_pairs at 2. cbn [app]. rewrite Nat.mul_0_r, Nat.add_0_r. do 2 f_equal.
  rewrite <- (seq_shift n 0), !flat_map_concat_map, map_map. f_equal. apply map_ext. intros j. unfold unpack_pairs. replace (2 + a + 2 * j)%nat with (a + 2 * S j)%nat by lia. reflexivity.
Qed.
Definition unpack_flat (n : nat) : flat :=
  mkFlat (PPass :: flat_map (fun k => [PSlice (Z.of_nat k) 1; PPass]) (rev (seq 0 n))) (flat_map (unpack_pairs 1) (seq 0 n)) [O]
         (map (fun k => 2 + 2 * (n - 1 - k))%nat (seq 0 n)) [].
Lemma insert_down (f : nat -> nat) n : forall l2, match l2 with [] => True | x :: _ => Z.of_nat n <= fst x end ->
  fold_left (fun acc e => insert_let e acc) (map (fun k => (Z.of_nat k, f k)) (rev (seq 0 n))) l2 = map (fun k => (Z.of_nat k, f k)) (seq 0 n) ++ l2.
Proof.
  induction n as [| n IH]; intros l2 H; [reflexivity |]. rewrite seq_S, rev_app_distr, map_app. cbn [rev app map fold_left Nat.add].
  assert (G : insert_let (Z.of_nat n, f n) l2 = (Z.of_nat n, f n) :: l2).
  { apply (insert_mid _ [] l2); [constructor |]. destruct l2; [exact Logic.I | cbn [fst]; lia]. }
  rewrite G, IH; [rewrite map_app, <- app_assoc; reflexivity |]. cbn [fst]. lia.
Qed.
Lemma unpack_outs n (f : nat -> nat) : forall b, (forall k, (k < n)%nat -> f k = b + 2 * (n - 1 - k) + 1)%nat ->
  outs_of (unpack_parts n) b = map (fun k => (Z.of_nat k, f k)) (rev (seq 0 n)).
Proof.
  induction n as [| n IH]; intros b H; [reflexivity |]. rewrite seq_S, rev_app_distr. cbn [unpack_parts outs_of rev app map Nat.add].
  rewrite (H n) by lia. replace (b + 2 * (S n - 1 - n) + 1)%nat with (S b) by lia. f_equal. apply IH. intros k Hk. rewrite H by lia. lia.
Qed.
Lemma unpack_ins n : forall b, ins_of (unpack_parts n) b = [].
Proof. induction n as [| n IH]; intros b; [reflexivity |]. cbn [unpack_parts ins_of]. apply IH. Qed.
Lemma unpack_flatten n : flatten (unpack_pd n) 0 = unpack_flat n.
Proof.
  unfold unpack_pd. rewrite flatten_simple.
  - cbn [map prim_of ins_of outs_of]. rewrite unpack_ins, (unpack_outs n (fun k => 2 + 2 * (n - 1 - k))%nat) by (intros; lia). unfold unpack_flat, by_x.
    rewrite insert_down by exact Logic.I. rewrite app_nil_r, map_map, unpack_conns_flat, unpack_parts_flat, map_flat. reflexivity.
  - cbn [forallb simple]. rewrite unpack_parts_flat. apply simple_flat. reflexivity.
  - cbn [List.length]. rewrite unpack_parts_flat, pairs_length, rev_length, seq_length, unpack_conns_flat.
    apply Forall_flat_map. apply Forall_forall. intros j Hj. apply in_seq in Hj. apply Forall_cons; [lia | apply Forall_cons; [lia | apply Forall_nil]].
Qed.
Lemma unpack_tasks_in n m : tasks_of (f_conns (unpack_flat n)) 0 0 m = map (fun j => ((1 + 2 * j)%nat, O, m)) (seq 0 n).
Proof.
  cbn [f_conns unpack_flat]. rewrite tasks_flat. induction (seq 0 n) as [| j l IH]; [reflexivity |]. cbn [flat_map map]. rewrite IH. reflexivity.
Qed.
Lemma unpack_tasks_slice n j o m : (j < n)%nat -> tasks_of (f_conns (unpack_flat n)) (1 + 2 * j) o m = (if Nat.eqb o 0 then [((2 + 2 * j)%nat, O, m)] else []).
Proof.
  intros H. cbn [f_conns unpack_flat]. rewrite tasks_flat.
  transitivity (flat_map (fun x => if Nat.eqb x j then (if Nat.eqb o 0 then [((2 + 2 * x)%nat, O, m)] else []) else []) (seq 0 n)); [| apply (pick_in (fun x => if Nat.eqb o 0 then [((2 + 2 * x)%nat, O, m)] else []) j n H)].
  apply flat_map_ext_in. intros x _. unfold unpack_pairs. rewrite !tasks_cons. replace (Nat.eqb 0 (1 + 2 * j)) with false by reflexivity. cbn [andb app].
  replace (Nat.eqb (1 + 2 * x) (1 + 2 * j)) with (Nat.eqb x j).
  - destruct (Nat.eqb x j); cbn [andb]; [| reflexivity]. rewrite (Nat.eqb_sym 0 o). destruct (Nat.eqb o 0); reflexivity.
  - destruct (Nat.eqb_spec x j), (Nat.eqb_spec (1 + 2 * x) (1 + 2 * j)); try reflexivity; lia.
Qed.
Lemma unpack_tasks_out n j m : tasks_of (f_conns (unpack_flat n)) (2 + 2 * j) 0 m = [].
Proof.
  cbn [f_conns unpack_flat]. rewrite tasks_flat. apply flat_none. intros x _. apply tasks_none. apply Forall_cons; [intros [H _]; lia | apply Forall_cons; [intros [H _]; lia | apply Forall_nil]].
Qed.
Lemma unpack_index n j : (j < n)%nat -> index_of (2 + 2 * j) (f_outs (unpack_flat n)) 0 = Some (n - 1 - j)%nat.
Proof.
  intros H. cbn [f_outs unpack_flat]. apply (index_from _ _ (n - 1 - j) 0).
  - apply NoDup_map_inv with (f := fun x => (n - 1 - (x - 2) / 2)%nat). rewrite map_map.
    rewrite (map_ext_in _ (fun k => k)); [rewrite map_id; apply seq_NoDup |]. intros k Hk. apply in_seq in Hk.
    replace (2 + 2 * (n - 1 - k) - 2)%nat with ((n - 1 - k) * 2)%nat by lia. rewrite Nat.div_mul by lia. lia.
  - rewrite nth_error_map, nth_seq by lia. cbn [option_map]. f_equal. lia.
Qed.
Lemma unpack_even n j : (0 < j)%nat -> (exists k, j = 1 + 2 * k)%nat -> index_of j (f_outs (unpack_flat n)) 0 = None.
Proof. intros _ [k ->]. apply index_none. cbn [f_outs unpack_flat]. intros H. apply in_map_iff in H. destruct H as (x & Hx & _). lia. Qed.
Lemma unpack_node_slice n j : (j < n)%nat -> nth_error (f_nodes (unpack_flat n)) (1 + 2 * j) = Some (PSlice (Z.of_nat (n - 1 - j)) 1).
Proof. intros H. cbn [f_nodes unpack_flat Nat.add nth_error]. rewrite pairs_even, nth_rev_seq by exact H. reflexivity. Qed.
Lemma unpack_node_out n j : (j < n)%nat -> nth_error (f_nodes (unpack_flat n)) (2 + 2 * j) = Some PPass.
Proof. intros H. refine (eq_trans (pairs_odd (fun k => PSlice (Z.of_nat k) 1) (fun _ => PPass) _ j) _). rewrite nth_rev_seq by exact H. reflexivity. Qed.
Lemma unpack_rest E n t m r : forall j s, (j + r = n)%nat ->
  runs E (unpack_flat n) t (mkWorld (f_nodes (unpack_flat n)) [] s) (map (fun j => ((1 + 2 * j)%nat, O, m)) (seq j r))
    (mkWorld (f_nodes (unpack_flat n)) [] (log s (unpack_one r (t, m)))).
Proof.
  induction r as [| r IH]; intros j s Hj; cbn [seq map]; [unfold unpack_one; cbn [seq rev flat_map]; rewrite log_nil; apply runs_nil |].
  assert (Hn : (j < n)%nat) by lia. replace (n - 1 - j)%nat with r in * by lia.
  pose proof (unpack_node_slice n j Hn) as N1. pose proof (unpack_node_out n j Hn) as N2. replace (n - 1 - j)%nat with r in * by lia.
  assert (U : unpack_one (S r) (t, m) = match nth_error m r with Some x => [(t, r, [x])] | None => [] end ++ unpack_one r (t, m)).
  { unfold unpack_one. rewrite seq_S, rev_app_distr. reflexivity. }
  rewrite U. destruct (nth_error m r) as [x |] eqn:Hx.
  - assert (R : react E t (PSlice (Z.of_nat r) 1) 0 m = Ok (PSlice (Z.of_nat r) 1, [(O, [x])])).
    { cbn [react]. assert (r < List.length m)%nat by (apply nth_error_Some; rewrite Hx; discriminate). unfold zlen. destruct (Z.ltb_spec (Z.of_nat r) (Z.of_nat (List.length m))); [| lia].
      rewrite Nat2Z.id. cbn [Z.ltb Z.compare]. change (Z.to_nat 1) with 1%nat. apply nth_error_split in Hx. destruct Hx as (l1 & l2 & -> & <-).
      rewrite skipn_app, skipn_all, Nat.sub_diag. reflexivity. }
    eapply runs_step; [apply (step_keep E (unpack_flat n) t (mkWorld (f_nodes (unpack_flat n)) [] s) (1 + 2 * j) 0 m _ _ N1 ltac:(discriminate) R) |].
    unfold noted at 1. rewrite (unpack_even n (1 + 2 * j)) by (try exists j; lia). cbn [flat_map fst snd nodes queue sent]. rewrite log_nil, unpack_tasks_slice by exact Hn. cbn [Nat.eqb app].
    eapply runs_step; [apply (step_pass E (unpack_flat n) t _ (2 + 2 * j)); exact N2 |]. unfold noted. rewrite unpack_index, unpack_tasks_out by exact Hn.
    replace (n - 1 - j)%nat with r by lia. cbn [app nodes queue sent].
    pose proof (IH (S j) (log s [(t, r, [x])]) ltac:(lia)) as G. unfold log in *. rewrite <- app_assoc in G. exact G.
  - assert (R : react E t (PSlice (Z.of_nat r) 1) 0 m = Ok (PSlice (Z.of_nat r) 1, [(1%nat, [EB])])).
    { cbn [react]. apply nth_error_None in Hx. unfold zlen. destruct (Z.ltb_spec (Z.of_nat r) (Z.of_nat (List.length m))); [lia | reflexivity]. }
    eapply runs_step; [apply (step_keep E (unpack_flat n) t (mkWorld (f_nodes (unpack_flat n)) [] s) (1 + 2 * j) 0 m _ _ N1 ltac:(discriminate) R) |].
    unfold noted at 1. rewrite (unpack_even n (1 + 2 * j)) by (try exists j; lia). cbn [flat_map fst snd nodes queue sent]. rewrite log_nil, unpack_tasks_slice by exact Hn. cbn [Nat.eqb app].
    apply IH. lia.
Qed.
Lemma unpack_sends E n l : sends E (unpack_pd n) (map msg_event l) (unpack_spec n l).
Proof.
  apply (stateless E (unpack_pd n) (unpack_flat n) (unpack_one n) (fun _ => True)); [apply unpack_flatten | reflexivity | | apply Forall_forall; intros; exact Logic.I].
  intros t m s _. rewrite (inlet_one _ 0) by reflexivity. eapply runs_step; [apply step_pass; reflexivity |].
  unfold noted. rewrite index_none.
  - rewrite log_nil, app_nil_r, unpack_tasks_in. apply unpack_rest. reflexivity.
  - cbn [f_outs unpack_flat]. intros H. apply in_map_iff in H. destruct H as (x & Hx & _). lia.
Qed.
