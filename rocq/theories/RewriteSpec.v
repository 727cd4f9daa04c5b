(** What a patch means when inlets may have several signal connections: the equations its signals satisfy. *)
From Verif Require Import RewriteModel.

Section Equations.
Context {A : Type} (add : A -> A -> A) (zero : A) (inp : nat -> A).

(** The signal at an inlet: the sum of the connected outlets, each once; silence if there is none. *)
Definition inlet_sum (g : patch) (V : nat -> nat -> A) (o i : nat) : A :=
  match map (fun c => V c.(c_from) c.(c_out)) (signals (at_inlet g o i)) with
  | [] => zero
  | v :: vs => fold_left add vs v
  end.
(** [V o j] is a possible signal at outlet [j] of [o], for all objects. *)
Definition solution (g : patch) (f : nat -> list A -> nat -> A) (V : nat -> nat -> A) : Prop :=
  (forall o sg ins outs, g.(kind_of) o = Leaf sg ins outs None ->
     forall j, V o j = f o (map (inlet_sum g V o) (sig_lets ins)) j) /\
  (forall o ch, g.(kind_of) o = Inlet (Some ch) -> V o 0 = inp ch) /\
  (forall G objs il ol i o, g.(kind_of) G = Graph objs il ol -> nth_error il i = Some o -> g.(kind_of) o = Inlet None ->
     V o 0 = inlet_sum g V G i) /\
  (forall G objs il ol j o, g.(kind_of) G = Graph objs il ol -> nth_error ol j = Some o -> V G j = inlet_sum g V o 0).
End Equations.

(** Numbers from [n] on are unused. *)
Record fresh_from (g : patch) (n : nat) : Prop := {
  fr_kind : forall x, n <= x -> g.(kind_of) x = Outlet;
  fr_conn : forall c, In c g.(conns) -> c.(c_from) < n /\ c.(c_to) < n;
  fr_lets : forall G objs il ol o, g.(kind_of) G = Graph objs il ol -> In o (objs ++ il ++ ol) -> o < n }.

(** The objects of the arithmetic types have the lets of heavy.ir.json (only an adder can be one made
    for dac~), and all their connections are signals. *)
Record arithmetic (w : work) : Prop := {
  ar_kind : forall x, match w.(ty) x with
    | Mul | Sub => w.(pt).(kind_of) x = Leaf true [Some false; Some false] [Some false] None
    | Add => exists d, w.(pt).(kind_of) x = Leaf true [Some false; Some false] [Some false] d
    | Fma | Fms => w.(pt).(kind_of) x = Leaf true [Some false; Some false; Some false] [Some false] None
    | Other => True
    end;
  ar_conn : forall c, In c w.(pt).(conns) -> w.(ty) c.(c_from) <> Other \/ w.(ty) c.(c_to) <> Other -> c.(c_sig) = true }.
