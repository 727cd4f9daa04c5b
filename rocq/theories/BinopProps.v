(** C20, C21: control arithmetic. *)
From Verif Require Import BinopModel BinopSpec BinopProofs Float32Facts.
From Flocq Require Import Core.
From Coq Require Import Reals Lra.
Local Open Scope Z_scope.

(** C20, exact boundary: an operation is undefined precisely when the operands are outside [safe]
    (in particular never for the non-integer operations), and otherwise yields a value. *)
Theorem binop_defined_iff_safe : forall powf atan2f op f k,
  (safe op f k -> exists r, perform_op powf atan2f op f k = Ok r) /\
  (~ safe op f k -> perform_op powf atan2f op f k = UB).
Proof. exact safe_iff. Qed.

(** The object holds its operand: in any history whose operands are safe, it answers every float
    on the left inlet. *)
Definition history_safe (op : binop) := fix hs (k : f32) (l : list binop_in) : Prop :=
  match l with
  | [] => True
  | Left (Some f) (Some g) :: l' => safe op f g /\ hs g l'
  | Left (Some f) None :: l' => safe op f k /\ hs k l'
  | Left None _ :: l' => hs k l'
  | Right (Some g) :: l' => hs g l'
  | Right None :: l' => hs k l'
  end.
Definition answered (i : binop_in) : nat := match i with Left (Some _) _ => 1 | _ => 0 end.
Theorem binop_history_defined : forall powf atan2f op l k, history_safe op k l ->
  exists k' out, binop_run powf atan2f op k l = Ok (k', out) /\
    length out = list_sum (map answered l).
Proof.
  intros powf atan2f op l. induction l as [|i l IH]; intros k H.
  { exists k, []. split; reflexivity. }
  assert (ST : exists k1 r, cBinop_onMessage powf atan2f op k i = Ok (k1, r) /\ history_safe op k1 l
      /\ (match r with Some _ => 1 | None => 0 end)%nat = answered i).
  { destruct i as [[f|] e1|[g|]]; cbn in H |- *.
    - destruct e1 as [g|]; destruct H as [S H].
      + destruct (proj1 (safe_iff powf atan2f op f g) S) as [r R]. rewrite R. exists g, (Some r). auto.
      + destruct (proj1 (safe_iff powf atan2f op f k) S) as [r R]. rewrite R. exists k, (Some r). auto.
    - exists k, None. auto.
    - exists g, None. auto.
    - exists k, None. auto. }
  destruct ST as (k1 & r & E & Hs & A). destruct (IH k1 Hs) as (k2 & out & B & L).
  cbn [binop_run]. rewrite E. cbn [obind]. rewrite B. cbn [obind].
  eexists. eexists. split; [reflexivity|]. cbn [map list_sum fold_right]. rewrite <- A. fold (list_sum (map answered l)). 
  rewrite <- L. destruct r; reflexivity.
Qed.

(** Division and modulus by zero yield zero (for the integer operations: by anything whose
    integer part is zero, except that the unipolar modulus traps there, see below). *)
Theorem binop_zero_divisor : forall powf atan2f f k, is_zero k ->
  perform_op powf atan2f DIVIDE f k = Ok fzero /\
  perform_op powf atan2f INT_DIV f k = Ok fzero /\
  perform_op powf atan2f MOD_BIPOLAR f k = Ok fzero /\
  perform_op powf atan2f MOD_UNIPOLAR f k = Ok fzero.
Proof.
  intros powf atan2f f k H. pose proof (proj2 (feqb_zero k) H) as E.
  destruct (int_of_zero k H) as [F I0]. cbn [perform_op]. rewrite E.
  destruct (to_int_spec k) as [[_ T]|[N _]]; [|tauto]. rewrite T, I0. repeat split; reflexivity.
Qed.

(** The claim without the boundary is false: unipolar modulus by 1/2 divides by zero, and
    shifting by a negative count or converting a huge float is undefined. *)
Theorem binop_mod_unipolar_trap_refuted : forall powf atan2f,
  perform_op powf atan2f MOD_UNIPOLAR (of_int 7) (fdyadic 1 (-1)) = UB.
Proof. intros. vm_compute. reflexivity. Qed.
Theorem binop_huge_operand_refuted : forall powf atan2f,
  perform_op powf atan2f BIT_AND (fdyadic 1 40) (of_int 1) = UB /\
  perform_op powf atan2f BIT_LEFTSHIFT (of_int 1) (of_int (-1)) = UB /\
  perform_op powf atan2f INT_DIV (of_int int_min) (of_int (-1)) = UB.
Proof. intros. vm_compute. repeat split; reflexivity. Qed.

(** C21: on integer-valued operands the integer operations are the integers' quotient and
    remainder (truncating), converted to float; exact whenever the divisor is at most 2^24. *)
Theorem int_div_rem_exact : forall powf atan2f f k a b, is_int f a -> is_int k b ->
  int_min <= a <= int_max -> int_min <= b <= int_max -> b <> 0 -> ~ (a = int_min /\ b = -1) ->
  perform_op powf atan2f INT_DIV f k = Ok (of_int (Z.quot a b)) /\
  perform_op powf atan2f MOD_BIPOLAR f k = Ok (of_int (Z.rem a b)) /\
  (Z.abs (Z.quot a b) <= 2 ^ 24 -> is_int (of_int (Z.quot a b)) (Z.quot a b)) /\
  (Z.abs b <= 2 ^ 24 -> is_int (of_int (Z.rem a b)) (Z.rem a b)).
Proof.
  intros powf atan2f f k a b Hf Hk Ha Hb Nb Ho. cbn [perform_op].
  rewrite (to_int_int k b Hk Hb), (to_int_int f a Hf Ha). cbn [obind].
  assert (E1 : c_div a b = Ok (Z.quot a b) /\ c_rem a b = Ok (Z.rem a b)).
  { unfold c_div, c_rem. destruct (Z.eqb_spec b 0); [tauto|]. cbn [orb].
    destruct (Z.eqb_spec a int_min), (Z.eqb_spec b (-1)); cbn [andb]; try tauto; auto. }
  destruct E1 as [E1 E2]. rewrite E1, E2. destruct (Z.eqb_spec b 0); [tauto|]. cbn [negb obind].
  split; [reflexivity|]. split; [reflexivity|]. split; intro L; apply of_int_is_int; auto.
  assert (Z.abs (Z.rem a b) < Z.abs b) by (apply Z.rem_bound_abs; auto). lia.
Qed.
(** The unipolar modulus is the mathematical modulus, hence in [0,|k|), for |k| up to 2^24. *)
Theorem mod_unipolar_exact : forall powf atan2f f k a b, is_int f a -> is_int k b ->
  int_min <= a <= int_max -> 0 < Z.abs b <= 2 ^ 24 -> ~ (a = int_min /\ b = -1) ->
  exists r, perform_op powf atan2f MOD_UNIPOLAR f k = Ok r /\ is_int r (a mod Z.abs b)
    /\ 0 <= a mod Z.abs b < Z.abs b.
Proof.
  intros powf atan2f f k a b Hf Hk Ha Hb Ho.
  destruct (unipolar_spec powf atan2f f k a b Hf Hk Ha Hb Ho) as (r & E & R).
  exists r. split; [exact E|]. split; [exact R|]. apply Z.mod_pos_bound. lia.
Qed.
Example int_ops_hyps : is_int (of_int (-7)) (-7) /\ is_int (of_int 3) 3 /\
  (forall p a, exists r, perform_op p a MOD_UNIPOLAR (of_int (-7)) (of_int 3) = Ok r /\ is_int r 2).
Proof.
  split; [apply of_int_is_int; lia|]. split; [apply of_int_is_int; lia|].
  intros p a. apply (unipolar_spec p a _ _ (-7) 3); try (apply of_int_is_int); unfold int_min, int_max; lia.
Qed.
(** Beyond 2^24 the sum that makes it positive rounds up to |k| itself. *)
Theorem mod_unipolar_large_refuted : forall powf atan2f,
  exists r, perform_op powf atan2f MOD_UNIPOLAR (of_int (-1)) (of_int 33554432) = Ok r /\
    is_int (of_int 33554432) 33554432 /\ is_int r 33554432.
Proof.
  intros.
  assert (K : is_int (of_int 33554432) 33554432).
  { destruct (dyadic_exact 1 25) as [H1 H2]; [lia|lia|].
    assert (E : of_int 33554432 = fdyadic 1 25) by (apply B2SF_inj; vm_compute; reflexivity).
    rewrite E. split; [exact H2|]. rewrite H1. cbn. lra. }
  exists (fadd (of_int (-1)) (fabs (of_int 33554432))). split; [|split; [exact K|]].
  - cbn [perform_op].
    assert (A1 : feqb (of_int 33554432) fzero = false) by (vm_compute; reflexivity).
    assert (A2 : to_int (of_int (-1)) = Ok (-1)) by (vm_compute; reflexivity).
    assert (A3 : to_int (of_int 33554432) = Ok 33554432) by (vm_compute; reflexivity).
    assert (A4 : c_rem (-1) 33554432 = Ok (-1)) by reflexivity.
    assert (A5 : fltb (of_int (-1)) fzero = true) by (vm_compute; reflexivity).
    rewrite A1, A2, A3. cbn [obind]. rewrite A4. cbn [obind]. rewrite A5. reflexivity.
  - assert (E : fadd (of_int (-1)) (fabs (of_int 33554432)) = of_int 33554432)
      by (apply B2SF_inj; vm_compute; reflexivity).
    rewrite E. exact K.
Qed.

Print Assumptions binop_defined_iff_safe.
Print Assumptions binop_history_defined.
Print Assumptions binop_zero_divisor.
Print Assumptions binop_mod_unipolar_trap_refuted.
Print Assumptions binop_huge_operand_refuted.
Print Assumptions int_div_rem_exact.
Print Assumptions mod_unipolar_exact.
Print Assumptions mod_unipolar_large_refuted.
