(** Vocabulary of the properties of signal table access. *)
From Verif Require Import TableModel TableSpec SigTabModel.

Section S.
Context {V : Type}.
Variable vzero : V.
Variable N : Z.

(** A table as the constructor and resize leave it. *)
Definition sound (t : table V) : Prop :=
  owns N t /\ (N | t_size t) /\ t_allocated t = t_size t + N.
(** The cells from [from] on hold the values of [l]. *)
Definition holds (t : table V) (from : Z) (l : list V) : Prop :=
  forall i v, nth_error l i = Some v -> get t (from + Z.of_nat i) = Ok v.
(** Vectors. *)
Definition vec (v : list V) : Prop := zlen v = N.
Definition silence : list V := repeat vzero (Z.to_nat N).
(** The largest multiple of N not above x. *)
Definition block_of (x p : Z) : Prop := (N | p) /\ p <= x < p + N.
(** The sample a position message asks for: [a] samples from the start, or from the end if negative. *)
Definition asks (t : table V) (f : f32) (a x : Z) : Prop :=
  to_u32 (fabs f) = Ok a /\ (fltb f fzero = false /\ x = a \/ fltb f fzero = true /\ x = t_size t - a).

(** The messages a stoppable reader may get: known tables, positions and lengths below 2^32; tables
    may change in any way that leaves them sound. *)
Definition num_ok (m : tmsg) : Prop := match m with MFloat f => exists a, to_u32 (fabs f) = Ok a | _ => True end.
Definition play_ok (k : nat) (o : play_op V) : Prop :=
  match o with
  | PMsg m | PEnd m => num_ok m
  | PSelect i => (i < k)%nat
  | PBlock => True
  | PTables ts => length ts = k /\ Forall sound ts
  end.
End S.
