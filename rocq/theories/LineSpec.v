(** Specification of line~: a straight segment and what happens to it. *)
From Coq Require Import ZArith Reals List.
Import ListNotations.
Local Open Scope Z_scope.

(** From [from] to [to] in [len] samples; [pos] samples of it have been output. *)
Record segment := { from : R; to : R; len : Z; pos : Z }.
(** Its value at sample k. *)
Definition value (g : segment) (k : Z) : R :=
  if k <=? g.(len) then (g.(from) + IZR k * ((g.(to) - g.(from)) / IZR g.(len)))%R else g.(to).
Definition constant (v : R) : segment := {| from := v; to := v; len := 0; pos := 0 |}.
Inductive message := Ramp (target : R) (samples : Z) | Jump (v : R) | Stop.
Inductive event := Render | Message (m : message).

Section Spec.
Variable N : Z.     (* block length *)
(** A message ends the segment.  The value it continues from is that of [ahead] samples later. *)
Variable ahead : Z.
Definition now (g : segment) : R := value g (g.(pos) + ahead).
Definition react (g : segment) (m : message) : segment :=
  match m with
  | Ramp t n => {| from := now g; to := t; len := n; pos := 0 |}
  | Jump v => constant v
  | Stop => constant (now g)
  end.
Definition advance (g : segment) : segment := {| from := g.(from); to := g.(to); len := g.(len); pos := g.(pos) + N |}.
Fixpoint output (g : segment) (ops : list event) : list R :=
  match ops with
  | [] => []
  | Render :: ops' => map (fun i => value g (g.(pos) + Z.of_nat i)) (seq 0 (Z.to_nat N)) ++ output (advance g) ops'
  | Message m :: ops' => output (react g m) ops'
  end.
(** No segment is rendered for more than its length and about 2^31 samples. *)
Fixpoint not_too_long (g : segment) (ops : list event) : Prop :=
  match ops with
  | [] => True
  | Render :: ops' => -2147483648 <= g.(len) - (g.(pos) + N) - N /\ not_too_long (advance g) ops'
  | Message m :: ops' => (match m with Ramp _ n => -2147483600 <= n < 2147483648 | _ => True end) /\ not_too_long (react g m) ops'
  end.
End Spec.
