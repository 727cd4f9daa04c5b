(** What [env~] reports. *)
From Verif Require Import EnvModel.

Section Spec.
Context {A : Type} (zero : A) (add mul : A -> A -> A).
(** Weighted sum of the squares of some samples. *)
Definition weighted (w xs : list A) : A := fold_right add zero (map2 (fun h x => mul h (mul x x)) w xs).
(** After [t] samples have been seen (of the stream xs): a report of the last [window] samples if t is
    window, window + period, window + 2 period, ... *)
Definition report (window period : Z) (w xs : list A) (t : Z) : option A :=
  if (window <=? t) && ((t - window) mod period =? 0)
  then Some (weighted w (firstn (Z.to_nat window) (skipn (Z.to_nat (t - window)) xs)))
  else None.
End Spec.
(** Rounded up to a multiple of the vector size, at least one vector. *)
Definition rounded_up (n x : Z) : Z := if x <=? n then n else n * ((x + n - 1) / n).
