(** Shared vocabulary of all models.

    - [outcome]: a modelled function either returns, or trips an [hv_assert]
      (hvcc/generators/ir2c/static/HvUtils.h: hv_assert = assert), or performs an
      operation that is undefined in C (out of bounds access, null dereference,
      division by zero, ...).  The three are never confused.
    - [u32]/[u16]: explicit wrap-around of hv_uint32_t / hv_uint16_t. *)
From Coq Require Export List ZArith Lia Bool.
Export ListNotations.
Global Open Scope Z_scope.

Inductive outcome (A : Type) : Type :=
| Ok (a : A)
| AssertFail
| UB.
Arguments Ok {A} a.
Arguments AssertFail {A}.
Arguments UB {A}.

Definition obind {A B} (o : outcome A) (f : A -> outcome B) : outcome B :=
  match o with Ok a => f a | AssertFail => AssertFail | UB => UB end.

Declare Scope outcome_scope.
Notation "'let!' x ':=' e 'in' f" := (obind e (fun x => f))
  (at level 200, x pattern, e at level 100, f at level 200) : outcome_scope.
Notation "'assert!' c 'in' f" := (if c then f else AssertFail)
  (at level 200, c at level 100, f at level 200) : outcome_scope.
Notation "'guard!' c 'in' f" := (if c then f else UB)
  (at level 200, c at level 100, f at level 200) : outcome_scope.
Global Open Scope outcome_scope.

Definition u32 (x : Z) : Z := x mod 4294967296.
Definition u16 (x : Z) : Z := x mod 65536.

(** Length of a list as an integer. *)
Definition zlen {A} (l : list A) : Z := Z.of_nat (length l).

(** [prefix l1 l2]: [l1] is an initial segment of [l2]. *)
Definition prefix {A} (l1 l2 : list A) : Prop := exists l3, l2 = l1 ++ l3.

Lemma zlen_nil {A} : zlen (@nil A) = 0.
Proof. reflexivity. Qed.
Lemma zlen_cons {A} (x : A) l : zlen (x :: l) = 1 + zlen l.
Proof. unfold zlen; cbn [length]; lia. Qed.
Lemma zlen_app {A} (l1 l2 : list A) : zlen (l1 ++ l2) = zlen l1 + zlen l2.
Proof. unfold zlen; rewrite app_length; lia. Qed.
Lemma zlen_nonneg {A} (l : list A) : 0 <= zlen l.
Proof. unfold zlen; lia. Qed.

Lemma u32_id x : 0 <= x < 4294967296 -> u32 x = x.
Proof. intros; unfold u32; apply Z.mod_small; lia. Qed.
Lemma u32_range x : 0 <= u32 x < 4294967296.
Proof. unfold u32; apply Z.mod_pos_bound; lia. Qed.
Lemma u16_id x : 0 <= x < 65536 -> u16 x = x.
Proof. intros; unfold u16; apply Z.mod_small; lia. Qed.
Lemma u16_range x : 0 <= u16 x < 65536.
Proof. unfold u16; apply Z.mod_pos_bound; lia. Qed.
