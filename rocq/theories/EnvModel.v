(** Model of /repo/hvcc/generators/ir2c/static/HvSignalEnvelope.c ([env~]).

    Samples and weights are elements of a type [A] with addition and multiplication (exact
    arithmetic in the theorems: any commutative ring).  The Hann weights (l.51-60, cosf) are a
    parameter: a list of windowSize values.  The final conversion to decibels and the scheduling of
    the message (l.70-79) are not modelled: a report is the weighted sum handed to
    sEnv_sendMessage.  Allocation succeeds (the code asserts it). *)
From Verif Require Export TableModel.

(** The four builds; HV_N_SIMD. *)
Inductive build := B_NONE | B_SSE | B_NEON | B_AVX.
Definition lanes (b : build) : Z := match b with B_NONE => 1 | B_SSE | B_NEON => 4 | B_AVX => 8 end.

(** ceilToNearestBlock, HvSignalEnvelope.c:23-25. *)
Definition ceil_block (x n : Z) : outcome Z := to_int (fmul (Bnearbyint mode_UP (fdiv (of_int x) (of_int n))) (of_int n)).

Section Env.
Context {A : Type} (zero : A) (add mul : A -> A -> A).
Record env := mkEnv { e_window : Z; e_period : Z; e_num : Z; e_weights : list A; e_buffer : list (option A) }.

(** sEnv_init, HvSignalEnvelope.c:27-63.  2 * windowSize is an int (l.37). *)
Definition sEnv_init (b : build) (hann : Z -> list A) (windowSize period : Z) : outcome env :=
  let n := lanes b in
  let! w := (if windowSize <=? n then Ok n else ceil_block windowSize n) in
  let! p := (if period <=? n then Ok n else if w <? period then Ok w else ceil_block period n) in
  if 2 * w <=? int_max then Ok (mkEnv w p 0 (hann w) (fresh_block (2 * w))) else UB.

Definition map2 {X Y Z'} (f : X -> Y -> Z') (l : list X) (l' : list Y) : list Z' := map (fun p => f (fst p) (snd p)) (combine l l').
(** A load of [n] initialised floats. *)
Fixpoint loaded (l : list (option A)) : outcome (list A) :=
  match l with [] => Ok [] | Some x :: r => let! y := loaded r in Ok (x :: y) | None :: _ => UB end.
Definition load (m : list (option A)) (from n : Z) : outcome (list A) := let! l := read_cells m from n in loaded l.
(** The vector loops, l.92-99, 109-116, 129-136: from the last vector down to the first; [k] vectors left. *)
Fixpoint vector_sum (n : Z) (o : env) (k : nat) (sum : list A) : outcome (list A) :=
  match k with
  | O => Ok sum
  | S k => let! x := load (e_buffer o) (Z.of_nat k * n) n in
           let! h := load (map Some (e_weights o)) (Z.of_nat k * n) n in
           vector_sum n o k (map2 add sum (map2 mul x h))
  end.
(** The scalar loop, l.144-147; [i] counts up. *)
Fixpoint scalar_sum (o : env) (i : Z) (k : nat) (sum : A) : outcome A :=
  match k with
  | O => Ok sum
  | S k => let! h := load (map Some (e_weights o)) i 1 in
           let! x := load (e_buffer o) i 1 in
           scalar_sum o (i + 1) k (add sum (mul (hd zero h) (hd zero x)))
  end.
(** Horizontal sums: two hadd and lane 0 (l.117-120), two hadd and lanes 0 and 4 (l.100-102), the lanes from
    left to right (l.137). *)
Definition horizontal (b : build) (s : list A) : A :=
  let l i := nth i s zero in
  match b with
  | B_NONE => l O
  | B_SSE => add (add (l 0%nat) (l 1%nat)) (add (l 2%nat) (l 3%nat))
  | B_NEON => add (add (add (l 0%nat) (l 1%nat)) (l 2%nat)) (l 3%nat)
  | B_AVX => add (add (add (l 0%nat) (l 1%nat)) (add (l 2%nat) (l 3%nat))) (add (add (l 4%nat) (l 5%nat)) (add (l 6%nat) (l 7%nat)))
  end.
Definition window_sum (b : build) (o : env) : outcome A :=
  match b with
  | B_NONE => scalar_sum o 0 (Z.to_nat (e_window o)) zero
  | _ => let n := lanes b in
         let! s := vector_sum n o (Z.to_nat (Z.land (e_window o) (Z.lnot (n - 1)) / n)) (repeat zero (Z.to_nat n)) in
         Ok (horizontal b s)
  end.
(** hv_memcpy(o->buffer, o->buffer + period, num - period), l.78: undefined if the two ranges overlap,
    unless [lenient] (a memcpy that behaves like memmove). *)
Definition shift_buffer (lenient : bool) (o : env) : outcome env :=
  let n := e_num o - e_period o in
  if negb lenient && (e_period o <? n) then UB
  else
    let! d := read_cells (e_buffer o) (e_period o) n in
    let! m := write_cells (e_buffer o) 0 d in
    Ok (mkEnv (e_window o) (e_period o) n (e_weights o) m).
(** sEnv_process, l.81-151, for one vector of input; the report, if any. *)
Definition sEnv_process (lenient : bool) (b : build) (o : env) (bIn : list A) : outcome (env * option A) :=
  let! m := write_cells (e_buffer o) (e_num o) (map Some (map2 mul bIn bIn)) in
  let o := mkEnv (e_window o) (e_period o) (e_num o + lanes b) (e_weights o) m in
  if e_window o <=? e_num o then
    let! s := window_sum b o in
    let! o := shift_buffer lenient o in
    Ok (o, Some s)
  else Ok (o, None).
Fixpoint env_run (lenient : bool) (b : build) (o : env) (blocks : list (list A)) : outcome (env * list (option A)) :=
  match blocks with
  | [] => Ok (o, [])
  | x :: r => let! (o1, y) := sEnv_process lenient b o x in let! (o2, ys) := env_run lenient b o1 r in Ok (o2, y :: ys)
  end.
End Env.
Arguments env : clear implicits.
