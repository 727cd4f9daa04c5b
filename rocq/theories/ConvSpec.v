(** What [conv~] computes. *)
From Verif Require Import ConvModel.

Section Spec.
Context {A : Type} (zero : A) (add mul : A -> A -> A).
(** The sample at time t of a stream that was silent before it began. *)
Definition sample (xs : list A) (t : Z) : A := if t <? 0 then zero else nth (Z.to_nat t) xs zero.
(** sum over k of c_k x_(t-k). *)
Definition fir (cs xs : list A) (t : Z) : A :=
  fold_right add zero (map (fun k => mul (nth k cs zero) (sample xs (t - Z.of_nat k))) (seq 0 (length cs))).
(** The table holds the coefficients cs. *)
Definition holds (tbl : table A) (cs : list A) : Prop :=
  t_size tbl = zlen cs /\ firstn (length cs) (t_mem tbl) = map Some cs.
End Spec.
