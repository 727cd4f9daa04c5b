(** Specification of the oscillator: a 32 bit turn counter. *)
From Coq Require Import ZArith List Reals.
Import ListNotations.
Local Open Scope Z_scope.

Definition turn : Z := 4294967296.
(** What sample the turn counter P stands for: the top 23 bits, as a fraction of a turn. *)
Definition sample (P : Z) : R := (IZR (P / 512) / IZR 8388608)%R.

Inductive osc_event := Steps (l : list Z) | SetPhase (P : Z).
(** Signal rate: every sample advances the counter by its own step.  [after]: the output of a
    sample is taken after the advance (vector builds) or before (scalar build). *)
Fixpoint osc_block (after : bool) (P : Z) (l : list Z) : list Z * Z :=
  match l with
  | [] => ([], P)
  | d :: l' => let P' := (P + d) mod turn in
      let (out, Q) := osc_block after P' l' in ((if after then P' else P) :: out, Q)
  end.
Fixpoint osc (after : bool) (P : Z) (ops : list osc_event) : list Z :=
  match ops with
  | [] => []
  | Steps l :: ops' => let (out, P') := osc_block after P l in out ++ osc after P' ops'
  | SetPhase q :: ops' => osc after q ops'
  end.

(** Control rate: N samples per block, one step until it is changed. *)
Inductive kosc_event := Block | Freq (z : Z) | Phase (P : Z).
Fixpoint kosc (N : nat) (P s : Z) (ops : list kosc_event) : list Z :=
  match ops with
  | [] => []
  | Block :: ops' => map (fun i => (P + Z.of_nat i * s) mod turn) (seq 0 N) ++ kosc N ((P + Z.of_nat N * s) mod turn) s ops'
  | Freq z :: ops' => kosc N P z ops'
  | Phase q :: ops' => kosc N q s ops'
  end.
