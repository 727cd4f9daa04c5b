(** Difference equations, sample by sample. *)
From Coq Require Import List.
Import ListNotations.
Section Spec.
Context {R : Type} (radd rsub rmul : R -> R -> R).
(** y[n] = x[n] - a[n] * y[n-1] *)
Fixpoint one_pole (y : R) (l : list (R * R)) : list R :=
  match l with [] => [] | (x, a) :: l' => let y' := rsub x (rmul a y) in y' :: one_pole y' l' end.
(** The same over the complex numbers: pairs (re, im). *)
Definition cmul (a b : R * R) : R * R :=
  (rsub (rmul (fst a) (fst b)) (rmul (snd a) (snd b)), radd (rmul (fst a) (snd b)) (rmul (snd a) (fst b))).
Definition csub (a b : R * R) : R * R := (rsub (fst a) (fst b), rsub (snd a) (snd b)).
Fixpoint complex_one_pole (y : R * R) (l : list ((R * R) * (R * R))) : list (R * R) :=
  match l with [] => [] | (x, a) :: l' => let y' := csub x (cmul a y) in y' :: complex_one_pole y' l' end.
(** y[n] = b0 x[n] + b1 x[n-1] + b2 x[n-2] - a1 y[n-1] - a2 y[n-2], with the coefficients of the moment. *)
Record coeffs := { b0 : R; b1 : R; b2 : R; a1 : R; a2 : R }.
Fixpoint biquad_eq (x1 x2 y1 y2 : R) (l : list (R * coeffs)) : list R :=
  match l with
  | [] => []
  | (x, k) :: l' =>
      let y := rsub (rsub (radd (radd (rmul k.(b0) x) (rmul k.(b1) x1)) (rmul k.(b2) x2)) (rmul k.(a1) y1)) (rmul k.(a2) y2) in
      y :: biquad_eq x x1 y y1 l'
  end.
End Spec.
Arguments coeffs : clear implicits.
