(** Abstractions; priorities. *)
From Verif Require Import ParseModel ParseSpec ParseProofs.
From Coq Require Import Lia String ZifyBool.
Local Open Scope list_scope.
Local Open Scope Z_scope.

(** [l], numbered from [z + 1] on. *)
Fixpoint count_from {A} (z : Z) (l : list A) : list (A * Z) := match l with [] => [] | x :: l' => (x, z + 1) :: count_from (z + 1) l' end.
Lemma count_app {A} (a b : list A) : forall z, count_from z (a ++ b) = count_from z a ++ count_from (z + zlen a) b.
Proof.
  induction a as [|x a IH]; intro z; [cbn; f_equal; unfold zlen; cbn; lia|]. cbn [app count_from]. rewrite IH. cbn [app]. do 2 f_equal. unfold zlen. cbn [List.length]. f_equal. lia.
Qed.
Lemma count_fst {A} (l : list A) : forall z, map fst (count_from z l) = l.
Proof. induction l as [|x l IH]; intro z; [reflexivity|]. cbn. rewrite IH. reflexivity. Qed.
Lemma count_nth {A} (l : list A) : forall z n, nth_error (map snd (count_from z l)) n = if Nat.ltb n (List.length l) then Some (z + 1 + Z.of_nat n) else None.
Proof.
  induction l as [|x l IH]; intros z n; [destruct n; reflexivity|]. destruct n as [|n]; [cbn; f_equal; lia|]. cbn [count_from map nth_error List.length]. rewrite IH.
  change (Nat.ltb (S n) (S (List.length l))) with (Nat.ltb n (List.length l)). destruct (Nat.ltb n (List.length l)); [f_equal; lia|reflexivity].
Qed.
Definition load_step (d : nat) (fs : files) (acc : list (text * Z) * Z) (name : text) : list (text * Z) * Z :=
  match fs name with
  | Some _ => let (l, z') := load d fs name (snd acc) in (fst acc ++ l, z')
  | None => acc
  end.
Lemma fold_ext {A B} (f g : A -> B -> A) l : (forall a b, f a b = g a b) -> forall a, fold_left f l a = fold_left g l a.
Proof. intro H. induction l as [|b l IH]; intro a; [reflexivity|]. cbn. rewrite H. apply IH. Qed.
Lemma load_eq d fs p names z : fs [] = None -> fs p = Some names -> load (S d) fs p z = fold_left (load_step d fs) names ([(p, z + 1)], z + 1).
Proof.
  intros N H. cbn [load]. rewrite H. apply fold_ext. intros acc n. unfold load_step. destruct (fs n) eqn:F; auto.
  unfold on_call_stack, new_graph. cbn [h_path h_parent]. destruct n; [congruence|]. reflexivity.
Qed.
Scheme reads_mut := Minimality for reads Sort Prop
with reads_all_mut := Minimality for reads_all Sort Prop.
Lemma reads_load fs : fs [] = None -> forall p l, reads fs p l -> exists n, forall d z, (n <= d)%nat -> load d fs p z = (count_from z l, z + zlen l).
Proof.
  intros N p l H. revert p l H.
  apply (reads_mut fs (fun p l => exists n, forall d z, (n <= d)%nat -> load d fs p z = (count_from z l, z + zlen l))
    (fun names l => exists n, forall d acc z, (n <= d)%nat -> fold_left (load_step d fs) names (acc, z) = (acc ++ count_from z l, z + zlen l))).
  - intros p names l F _ [n IH]. exists (S n). intros [|d] z L; [lia|]. rewrite (load_eq _ _ _ names) by auto. rewrite IH by lia. cbn [count_from app].
    f_equal. unfold zlen. cbn [List.length]. lia.
  - exists 0%nat. intros d acc z _. cbn. rewrite app_nil_r. f_equal. unfold zlen. cbn. lia.
  - intros n names l l' F _ [k IH] _ [k' IH']. exists (Nat.max k k'). intros d acc z L. cbn [fold_left]. unfold load_step at 2. destruct (fs n); [|congruence]. cbn [fst snd].
    rewrite IH by lia. rewrite IH' by lia. rewrite count_app, <- app_assoc. f_equal. unfold zlen. rewrite app_length. lia.
  - intros n names l F _ [k IH]. exists k. intros d acc z L. cbn [fold_left]. unfold load_step at 2. rewrite F. apply IH. lia.
Qed.
Theorem instances_numbered fs p l : fs [] = None -> reads fs p l -> exists n, forall depth zero, (n <= depth)%nat ->
  map fst (fst (load depth fs p zero)) = l /\ snd (load depth fs p zero) = zero + zlen l /\
  forall i, (i < List.length l)%nat -> nth_error (map snd (fst (load depth fs p zero))) i = Some (zero + 1 + Z.of_nat i).
Proof.
  intros N R. destruct (reads_load fs N p l R) as [n H]. exists n. intros depth zero L. rewrite H by auto. cbn [fst snd]. rewrite count_fst. repeat split; auto.
  intros i I. rewrite count_nth. replace (Nat.ltb i (List.length l)) with true; [reflexivity|]. symmetry. apply Nat.ltb_lt. auto.
Qed.
(** ** A file that contains itself *)
Definition itself (k : nat) : files := fun n => if text_eqb n (T "a") then Some (repeat (T "a") k) else None.
Lemma itself_load k depth zero : load (S depth) (itself k) (T "a") zero = fold_left (load_step depth (itself k)) (repeat (T "a") k) ([(T "a", zero + 1)], zero + 1).
Proof. apply load_eq; reflexivity. Qed.
Lemma itself_once depth : forall zero, List.length (fst (load depth (itself 1) (T "a") zero)) = depth.
Proof.
  induction depth as [|d IH]; intro zero; [reflexivity|]. rewrite itself_load. cbn [repeat fold_left]. unfold load_step. change (itself 1 (T "a")) with (Some (repeat (T "a") 1)). cbn [fst snd].
  specialize (IH (zero + 1)). destruct (load d (itself 1) (T "a") (zero + 1)) as [l z]. cbn [fst] in *. rewrite app_length. cbn. lia.
Qed.
Lemma itself_twice depth : forall zero, (S (List.length (fst (load depth (itself 2) (T "a") zero))) = 2 ^ depth)%nat.
Proof.
  induction depth as [|d IH]; intro zero; [reflexivity|]. rewrite itself_load. cbn [repeat fold_left]. unfold load_step. change (itself 2 (T "a")) with (Some (repeat (T "a") 2)). cbn [fst snd].
  pose proof (IH (zero + 1)) as A. destruct (load d (itself 2) (T "a") (zero + 1)) as [l z]. cbn [fst snd] in *.
  pose proof (IH z) as B. destruct (load d (itself 2) (T "a") z) as [l' z']. cbn [fst snd] in *. rewrite !app_length. cbn [List.length Nat.pow]. lia.
Qed.
