(** The buffer pool: what taking, retaining and releasing a buffer does to the retain counts. *)
From Coq Require Import Permutation.
From Verif Require Import GraphModel OrderProofs.
Local Open Scope Z_scope.

Definition pool_ok (p : pool) : Prop :=
  NoDup (map fst p) /\ NoDup (flat_map snd p) /\ (forall b, In b (flat_map snd p) <-> (b < num_buffers p)%nat).

Lemma find_bucket_none b p : find_bucket b p = None <-> ~ In b (flat_map snd p).
Proof.
  induction p as [| (k, l) p IH]; cbn; [tauto|]. rewrite in_app_iff.
  destruct (existsb (Nat.eqb b) l) eqn:E.
  - apply existsb_eqb in E. split; [discriminate | tauto].
  - apply existsb_eqb_false in E. rewrite IH. tauto.
Qed.
Lemma find_bucket_in b p k : NoDup (map fst p) -> find_bucket b p = Some k -> In b (bucket k p).
Proof.
  induction p as [| (k', l) p IH]; cbn; [discriminate|]. intros N. inversion N; subst.
  destruct (existsb (Nat.eqb b) l) eqn:E.
  - intros [= ->]. rewrite Z.eqb_refl. now apply existsb_eqb.
  - intros F. destruct (Z.eqb_spec k k') as [-> | _]; [|auto].
    exfalso. assert (In k' (map fst p)); [|contradiction]. clear - F. induction p as [| (a, l') p IH]; cbn in *; [discriminate|].
    destruct (existsb (Nat.eqb b) l'); [injection F as ->; now left | right; auto].
Qed.
Lemma bucket_in_flat b p k : In b (bucket k p) -> In b (flat_map snd p).
Proof.
  induction p as [| (k', l) p IH]; cbn; [tauto|]. rewrite in_app_iff. destruct (Z.eqb k k'); auto.
Qed.
Lemma find_bucket_of b p k : NoDup (flat_map snd p) -> In b (bucket k p) -> find_bucket b p = Some k.
Proof.
  induction p as [| (k', l) p IH]; cbn; [tauto|]. intros N. apply NoDup_app_elim in N as (N1 & N2 & D).
  destruct (Z.eqb_spec k k') as [-> | Hk]; intros H.
  - apply existsb_eqb in H. now rewrite H.
  - destruct (existsb (Nat.eqb b) l) eqn:E; [|auto].
    apply existsb_eqb in E. exfalso. apply (D b E). now apply (bucket_in_flat b p k).
Qed.

Lemma remove1_perm b l : In b l -> Permutation l (b :: remove1 b l).
Proof.
  induction l as [| x l IH]; cbn; [tauto|]. destruct (Nat.eqb_spec x b) as [-> | Hx]; [reflexivity|].
  intros [-> | H]; [congruence|]. rewrite (IH H) at 1. apply perm_swap.
Qed.
Lemma upd_remove_perm b k p : In b (bucket k p) -> Permutation (flat_map snd p) (b :: flat_map snd (upd k (remove1 b) p)).
Proof.
  induction p as [| (k', l) p IH]; cbn; [tauto|]. destruct (Z.eqb_spec k k') as [-> | Hk]; intros H; cbn.
  - change (b :: remove1 b l ++ flat_map snd p) with ((b :: remove1 b l) ++ flat_map snd p).
    apply Permutation_app_tail. now apply remove1_perm.
  - rewrite (IH H). apply Permutation_sym, Permutation_middle.
Qed.
Lemma upd_add_perm b k p : Permutation (flat_map snd (upd k (fun l => l ++ [b]) p)) (b :: flat_map snd p).
Proof.
  induction p as [| (k', l) p IH]; cbn; [reflexivity|]. destruct (Z.eqb_spec k k') as [-> | Hk]; cbn.
  - rewrite <- app_assoc. cbn. apply Permutation_sym, Permutation_middle.
  - rewrite IH. apply Permutation_sym, Permutation_middle.
Qed.
Lemma upd_keys k f p : map fst (upd k f p) = map fst p \/ (map fst (upd k f p) = map fst p ++ [k] /\ ~ In k (map fst p)).
Proof.
  induction p as [| (k', l) p IH]; cbn; [right; split; [reflexivity | tauto]|].
  destruct (Z.eqb_spec k k') as [-> | Hk]; cbn; [now left|].
  destruct IH as [-> | [-> N]]; [now left | right]. split; [reflexivity|]. intros [-> | H]; tauto.
Qed.
Lemma upd_keys_nodup k f p : NoDup (map fst p) -> NoDup (map fst (upd k f p)).
Proof.
  intros N. destruct (upd_keys k f p) as [-> | [-> H]]; [exact N|].
  apply NoDup_app_intro; [exact N | constructor; [intros [] | constructor] |]. intros x Hx [<- | []]. tauto.
Qed.
Lemma existsb_remove1 b b' l : b' <> b -> existsb (Nat.eqb b') (remove1 b l) = existsb (Nat.eqb b') l.
Proof.
  intros H. induction l as [| x l IH]; cbn; [reflexivity|].
  destruct (Nat.eqb_spec x b) as [-> | Hx]; cbn.
  - destruct (Nat.eqb_spec b' b); [contradiction | reflexivity].
  - now rewrite IH.
Qed.
Lemma find_upd_remove b b' k p : b' <> b -> find_bucket b' (upd k (remove1 b) p) = find_bucket b' p.
Proof.
  intros H. induction p as [| (k', l) p IH]; cbn.
  - reflexivity.
  - destruct (Z.eqb k k'); cbn; [now rewrite existsb_remove1 | now rewrite IH].
Qed.
Lemma find_upd_add b b' k p : b' <> b -> find_bucket b' (upd k (fun l => l ++ [b]) p) = find_bucket b' p.
Proof.
  intros H. induction p as [| (k', l) p IH]; cbn.
  - destruct (Nat.eqb_spec b' b); [contradiction | reflexivity].
  - destruct (Z.eqb k k'); cbn; [|now rewrite IH]. rewrite existsb_app. cbn.
    destruct (Nat.eqb_spec b' b); [contradiction|]. now rewrite !orb_false_r.
Qed.
Lemma find_upd_add_same b k p : find_bucket b p = None -> find_bucket b (upd k (fun l => l ++ [b]) p) = Some k.
Proof.
  induction p as [| (k', l) p IH]; cbn; [now rewrite Nat.eqb_refl|].
  destruct (existsb (Nat.eqb b) l) eqn:E; [discriminate|]. intros F.
  destruct (Z.eqb_spec k k') as [-> | Hk]; cbn.
  - now rewrite existsb_app, E; cbn; rewrite Nat.eqb_refl.
  - rewrite E. auto.
Qed.

Lemma pool_perm_ok p p' :
  NoDup (map fst p') -> Permutation (flat_map snd p) (flat_map snd p') -> pool_ok p -> pool_ok p' /\ num_buffers p' = num_buffers p.
Proof.
  intros K P (K0 & N & B). assert (E : num_buffers p' = num_buffers p) by (unfold num_buffers; symmetry; now apply Permutation_length).
  split; [|exact E]. split; [exact K|]. split.
  - now apply (Permutation_NoDup P).
  - intros b. rewrite E, <- B. split; intros H; [apply (Permutation_in b (Permutation_sym P)) | apply (Permutation_in b P)]; exact H.
Qed.
Lemma move_ok p b k k' : pool_ok p -> find_bucket b p = Some k ->
  let p' := upd k' (fun l => l ++ [b]) (upd k (remove1 b) p) in
  pool_ok p' /\ num_buffers p' = num_buffers p /\ find_bucket b p' = Some k' /\
  (forall b', b' <> b -> find_bucket b' p' = find_bucket b' p).
Proof.
  intros OK F p'. pose proof OK as (K & N & B).
  pose proof (find_bucket_in b p k K F) as I.
  pose proof (upd_remove_perm b k p I) as P1.
  assert (N1 : find_bucket b (upd k (remove1 b) p) = None).
  { apply find_bucket_none. apply (Permutation_NoDup P1) in N. now inversion N. }
  assert (P2 : Permutation (flat_map snd p) (flat_map snd p')) by (rewrite P1; symmetry; apply upd_add_perm).
  destruct (pool_perm_ok p p') as [OK' E]; auto; [now apply upd_keys_nodup, upd_keys_nodup|].
  split; [exact OK' | split; [exact E | split; [now apply find_upd_add_same |]]].
  intros b' H. unfold p'. now rewrite find_upd_add, find_upd_remove.
Qed.
Lemma grow_ok p k : pool_ok p ->
  let b := num_buffers p in
  let p' := upd k (fun l => l ++ [b]) p in
  pool_ok p' /\ num_buffers p' = S (num_buffers p) /\ find_bucket b p = None /\ find_bucket b p' = Some k /\
  (forall b', b' <> b -> find_bucket b' p' = find_bucket b' p).
Proof.
  intros (K & N & B) b p'.
  assert (F : ~ In b (flat_map snd p)) by (rewrite B; unfold b; lia).
  pose proof (upd_add_perm b k p) as P. fold p' in P.
  assert (E : num_buffers p' = S (num_buffers p)) by (unfold num_buffers; rewrite (Permutation_length P); reflexivity).
  split; [split; [now apply upd_keys_nodup | split]|].
  - apply (Permutation_NoDup (Permutation_sym P)). now constructor.
  - intros x. rewrite E. split; intros H.
    + apply (Permutation_in x P) in H as [<- | H]; [unfold b; lia|]. apply B in H. lia.
    + apply (Permutation_in x (Permutation_sym P)). destruct (Nat.eq_dec x b) as [-> | Hx]; [now left | right].
      apply B. unfold b in Hx. lia.
  - split; [exact E|]. apply find_bucket_none in F. split; [exact F|]. split; [now apply find_upd_add_same|].
    intros b' H. now apply find_upd_add.
Qed.

(** ** The two pools together *)
Definition pools_ok (P : pools) : Prop := forall t, pool_ok (P t).
Definition refs (P : pools) (b : buf) : option Z := match b with BTmp t n => find_bucket n (P t) | _ => None end.
Lemma buf_eqb_spec a b : reflect (a = b) (buf_eqb a b).
Proof.
  destruct a as [| i | i | t n], b as [| j | j | u m]; cbn; try (constructor; congruence).
  - destruct (Nat.eqb_spec i j); constructor; congruence.
  - destruct (Nat.eqb_spec i j); constructor; congruence.
  - destruct (Bool.eqb_spec t u), (Nat.eqb_spec n m); cbn; constructor; congruence.
Qed.
Lemma buf_eqb_refl b : buf_eqb b b = true.
Proof. destruct (buf_eqb_spec b b); congruence. Qed.

Lemma set_pool_ok P t p : pools_ok P -> pool_ok p -> pools_ok (set_pool P t p).
Proof. intros H1 H2 u. unfold set_pool. destruct (Bool.eqb u t); auto. Qed.
Lemma set_pool_same P t p : set_pool P t p t = p.
Proof. unfold set_pool. now rewrite eqb_reflx. Qed.
Lemma set_pool_other P t p u : u <> t -> set_pool P t p u = P u.
Proof. unfold set_pool. destruct (Bool.eqb_spec u t); congruence. Qed.

Lemma refs_set P t p n :
  (forall b', b' <> n -> find_bucket b' p = find_bucket b' (P t)) ->
  forall b, b <> BTmp t n -> refs (set_pool P t p) b = refs P b.
Proof.
  intros H b Hb. destruct b as [| i | i | u m]; cbn; try reflexivity.
  destruct (Bool.eqb_spec u t) as [-> | Hu]; [rewrite set_pool_same; apply H; congruence | now rewrite set_pool_other].
Qed.

Lemma retain_spec P t n k c : pools_ok P -> refs P (BTmp t n) = Some k ->
  exists P', retain P (BTmp t n) c = Some P' /\ pools_ok P' /\ refs P' (BTmp t n) = Some (k + c) /\
    (forall b, b <> BTmp t n -> refs P' b = refs P b) /\ (forall u, num_buffers (P' u) = num_buffers (P u)).
Proof.
  intros OK F. unfold retain. cbn [refs] in F. rewrite F. eexists. split; [reflexivity|].
  destruct (move_ok (P t) n k (k + c) (OK t) F) as (O1 & O2 & O3 & O4).
  split; [now apply set_pool_ok|]. split; [cbn [refs]; now rewrite set_pool_same|]. split.
  - now apply refs_set.
  - intros u. destruct (Bool.eqb_spec u t) as [-> | Hu]; [now rewrite set_pool_same | now rewrite set_pool_other].
Qed.

Lemma get_buffer_spec P t c ex n P' : pools_ok P -> get_buffer P t c ex = (n, P') ->
  pools_ok P' /\
  ((refs P (BTmp t n) = Some 0 /\ ~ In (BTmp t n) ex) \/ refs P (BTmp t n) = None) /\
  refs P' (BTmp t n) = Some c /\ (forall b, b <> BTmp t n -> refs P' b = refs P b) /\
  (forall u, (num_buffers (P u) <= num_buffers (P' u))%nat).
Proof.
  intros OK. unfold get_buffer.
  destruct (find _ (rev (bucket 0 (P t)))) as [b|] eqn:E; intros [= <- <-].
  - apply find_some in E as [I X]. apply in_rev in I.
    assert (F : find_bucket b (P t) = Some 0) by (apply find_bucket_of; [apply OK | exact I]).
    destruct (move_ok (P t) b 0 c (OK t) F) as (O1 & O2 & O3 & O4).
    split; [now apply set_pool_ok|]. split; [left; split; [exact F|]|].
    + intros H. apply negb_true_iff in X. apply not_true_iff_false in X. apply X. apply existsb_exists.
      exists (BTmp t b). split; [exact H | apply buf_eqb_refl].
    + split; [cbn [refs]; now rewrite set_pool_same|]. split; [now apply refs_set|].
      intros u. destruct (Bool.eqb_spec u t) as [-> | Hu]; [rewrite set_pool_same, O2; lia | rewrite set_pool_other by exact Hu; lia].
  - destruct (grow_ok (P t) c (OK t)) as (O1 & O2 & O3 & O4 & O5).
    split; [now apply set_pool_ok|]. split; [right; exact O3|].
    split; [cbn [refs]; now rewrite set_pool_same|]. split; [now apply refs_set|].
    intros u. destruct (Bool.eqb_spec u t) as [-> | Hu]; [rewrite set_pool_same, O2; lia | rewrite set_pool_other by exact Hu; lia].
Qed.
Lemma refs_bound P t n k : pools_ok P -> refs P (BTmp t n) = Some k -> (n < num_buffers (P t))%nat.
Proof.
  intros OK F. apply OK. destruct (in_dec Nat.eq_dec n (flat_map snd (P t))) as [H | H]; [exact H|].
  apply find_bucket_none in H. cbn in F. congruence.
Qed.
