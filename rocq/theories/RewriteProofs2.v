(** cascade_expansion over all inlets. *)
From Verif Require Import GraphModel GraphSpec RewriteModel RewriteSpec RewriteProofs.
Require Import ZifyBool.

Section All.
Context {A : Type} (add : A -> A -> A) (zero : A) (inp : nat -> A).
Notation sol := (solution add zero inp).
Notation isum := (inlet_sum add zero).
Definition refines (w w' : work) : Prop :=
  nxt w <= nxt w' /\ fresh_from (pt w') (nxt w') /\
  (forall x, x < nxt w -> ty w' x = ty w x) /\ (forall x, nxt w <= x < nxt w' -> ty w' x = Add) /\
  (forall f, (forall x a b j, nxt w <= x < nxt w' -> f x [a; b] j = add a b) ->
     (forall V, sol (pt w) f V -> exists V', sol (pt w') f V' /\ forall x j, x < nxt w -> V' x j = V x j) /\
     (forall V, sol (pt w') f V -> sol (pt w) f V /\ forall x e, x < nxt w -> isum (pt w') V x e = isum (pt w) V x e)).
Lemma refines_refl w : fresh_from (pt w) (nxt w) -> refines w w.
Proof.
  intros H. split; [lia | ]. split; [exact H | ]. split; [auto | ]. split; [intros; lia | ].
  intros f _. split; [intros V HV; exists V; auto | auto].
Qed.
Lemma refines_trans w1 w2 w3 : refines w1 w2 -> refines w2 w3 -> refines w1 w3.
Proof.
  intros (L1 & F1 & O1 & N1 & S1) (L2 & F2 & O2 & N2 & S2). split; [lia | ]. split; [exact F2 | ].
  split; [ | split].
  - intros x Hx. rewrite O2 by lia. now apply O1.
  - intros x Hx. destruct (Nat.lt_ge_cases x (nxt w2)); [rewrite O2 by lia; apply N1 | apply N2]; lia.
  - intros f Hf. destruct (S1 f) as [A1 B1]; [intros; apply Hf; lia | ]. destruct (S2 f) as [A2 B2]; [intros; apply Hf; lia | ]. split.
    + intros V HV. destruct (A1 V HV) as (V1 & H1 & E1). destruct (A2 V1 H1) as (V2 & H2 & E2).
      exists V2. split; [exact H2 | ]. intros x j Hx. rewrite E2 by lia. now apply E1.
    + intros V HV. destruct (B2 V HV) as [H2 E2]. destruct (B1 V H2) as [H1 E1]. split; [exact H1 | ].
      intros x e Hx. rewrite E2 by lia. now apply E1.
Qed.
Definition count (g : patch) (x e : nat) : nat := length (signals (at_inlet g x e)).
Lemma expand_le1 G o i w : count (pt w) o i <= 1 -> expand_inlet G o i w = w.
Proof. intros H. unfold expand_inlet. fold (count (pt w) o i). replace (Nat.leb (count (pt w) o i) 1) with true by lia. reflexivity. Qed.
Lemma expand_ok G o i w : fresh_from (pt w) (nxt w) ->
  refines w (expand_inlet G o i w) /\ count (pt (expand_inlet G o i w)) o i <= 1 /\
  forall x e, count (pt (expand_inlet G o i w)) x e <= max 1 (count (pt w) x e).
Proof.
  intros Hfr. destruct (Nat.le_gt_cases (count (pt w) o i) 1) as [H | H].
  - rewrite expand_le1 by exact H. split; [now apply refines_refl | ]. split; [exact H | lia].
  - assert (Hlen : 2 <= length (filter (hits o i) (pt w).(conns))). { unfold count in H. rewrite signals_at in H. exact H. }
    split; [ | split].
    + split; [rewrite step_nxt by auto; lia | ]. split; [now apply step_fresh | ]. split; [ | split].
      * intros x Hx. rewrite step_ty by auto. unfold between. replace (Nat.leb (nxt w) x) with false by lia. reflexivity.
      * intros x Hx. rewrite step_ty by auto. apply between_iff in Hx. rewrite Hx. reflexivity.
      * intros f Hf. split.
        -- intros V HV. exact (sol_forth G o i w Hfr Hlen add zero inp f Hf V HV).
        -- intros V HV. exact (sol_back G o i w Hfr Hlen add zero inp f Hf V HV).
    + unfold count. rewrite signals_at, at_self by auto. reflexivity.
    + intros x e. unfold count. rewrite !signals_at. now apply at_most.
Qed.
Notation step := (fun w p => expand_inlet (fst (fst p)) (snd (fst p)) (snd p) w).
Lemma expand_all_ok (l : list (nat * nat * nat)) : forall w, fresh_from (pt w) (nxt w) ->
  refines w (fold_left step l w) /\
  (forall x e, count (pt (fold_left step l w)) x e <= max 1 (count (pt w) x e)) /\
  (forall G o i, In (G, o, i) l -> count (pt (fold_left step l w)) o i <= 1).
Proof.
  induction l as [ | [[G o] i] l IH]; intros w Hfr; cbn [fold_left fst snd].
  - split; [now apply refines_refl | ]. split; [lia | ]. intros ? ? ? [].
  - destruct (expand_ok G o i w Hfr) as (R & C & M). destruct (IH (expand_inlet G o i w)) as (R2 & M2 & C2); [apply R | ].
    split; [eapply refines_trans; eassumption | ]. split.
    + intros x e. specialize (M x e). specialize (M2 x e). lia.
    + intros G2 o2 i2 [E | H]; [ | now apply C2 in H]. inversion E; subst. specialize (M2 o2 i2). lia.
Qed.
End All.

(** All inlets of the objects in the patch are visited. *)
Lemma expand_visits g (level : nat -> nat) depth :
  (forall o G, inside g o G -> level o = S (level G) /\ level o < depth) ->
  forall k G, level G + k >= depth -> forall o G', within g G G' -> inside g o G' -> 
  forall i, i < num_inlets g o -> In (G', o, i) (inlets_to_expand k g G) \/ k = 0.
Proof.
  intros Hlev.
  assert (Hdown : forall k G, level G + k >= depth -> 0 < k -> forall o, inside g o G ->
     (forall i, i < num_inlets g o -> In (G, o, i) (inlets_to_expand k g G)) /\ forall p, In p (inlets_to_expand (k - 1) g o) -> In p (inlets_to_expand k g G)).
  { intros k G Hk H0 o Ho. destruct k as [ | k]; [lia | ]. unfold inside in Ho. cbn [inlets_to_expand].
    destruct (kind_of g G) as [ | | | objs il ol]; try contradiction. split.
    - intros i Hi. apply in_flat_map. exists o. split; [exact Ho | ]. apply in_or_app. left. apply in_map_iff. exists i.
      split; [reflexivity | ]. apply in_seq. lia.
    - intros p Hp. apply in_flat_map. exists o. split; [exact Ho | ]. apply in_or_app. right. replace (S k - 1) with k in Hp by lia. exact Hp. }
  intros k G Hk o G' HW Ho i Hi. destruct k as [ | k]; [now right | left].
  assert (HP : exists k', k' <= S k /\ level G' + k' = level G + S k /\ 0 < k' /\ forall p, In p (inlets_to_expand k' g G') -> In p (inlets_to_expand (S k) g G)).
  { clear Hi i. revert o Ho. induction HW as [ | G1 G2 H1 HW IH]; intros o Ho.
    - exists (S k). repeat split; try lia. auto.
    - destruct (IH G1 H1) as (k' & L & E & P & F). destruct (Hlev _ _ H1) as [L1 L2]. destruct (Hlev _ _ Ho) as [L3 L4].
      exists (k' - 1). split; [lia | ]. split; [lia | ]. split; [lia | ]. intros p Hp. apply F.
      refine (proj2 (Hdown k' G2 _ _ G1 H1) p Hp); lia. }
  destruct HP as (k' & L & E & P & F). apply F. refine (proj1 (Hdown k' G' _ _ o Ho) i Hi); lia.
Qed.
