(** What a delay line is. *)
From Verif Require Import TableModel TableSpec SigTabModel SigTabSpec DelayLineModel BinopSpec.

(** The input at time t: silence before the start. *)
Definition sample {V} (vzero : V) (x : list V) (t : Z) : V := if t <? 0 then vzero else nth (Z.to_nat t) x vzero.
(** D is the delay rounded up to whole vectors, at least one vector. *)
Definition whole (N d D : Z) : Prop := (N | D) /\ Z.max N d <= D < Z.max N d + N.
(** Delay messages of the block starting at [clock]: in order of time, inside the block, whole numbers of
    samples [ds] (one per message) up to [dmax]. *)
Fixpoint sets_ok (N clock from dmax : Z) (sets : list (Z * f32)) (ds : list Z) : Prop :=
  match sets, ds with
  | [], [] => True
  | (ts, f) :: sets', d :: ds' => from <= ts < clock + N /\ is_int f d /\ 0 <= d <= dmax /\ sets_ok N clock ts dmax sets' ds'
  | _, _ => False
  end.
(** The delay in force in each block: the latest message received before the block, else the previous one. *)
Fixpoint delay_at (d : Z) (dss : list (list Z)) : list Z :=
  match dss with [] => [] | ds :: r => last ds d :: delay_at (last ds d) r end.
(** All blocks of a run are as required. *)
Fixpoint blocks_ok {V} (N clock dmax : Z) (blocks : list (list (Z * f32) * list V)) (dss : list (list Z)) : Prop :=
  match blocks, dss with
  | [], [] => True
  | (sets, v) :: bs, ds :: dss' => sets_ok N clock clock dmax sets ds /\ vec N v /\ blocks_ok N (clock + N) dmax bs dss'
  | _, _ => False
  end.
(** The output of each block is the input delayed by the delay then in force. *)
Definition delayed {V} (vzero : V) (N : Z) (x : list V) (ds : list Z) (outs : list (list V)) : Prop :=
  length outs = length ds /\
  forall k d out, nth_error ds k = Some d -> nth_error outs k = Some out ->
    exists D, whole N d D /\ vec N out /\
      forall i v, nth_error out i = Some v -> v = sample vzero x (N * Z.of_nat k + Z.of_nat i - D).
