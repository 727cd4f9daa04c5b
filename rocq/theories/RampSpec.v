(** What Pd's line is supposed to do. *)
From Verif Require Export PatchLibs2 PatchSpec2.
Open Scope Z_scope.

(** "[v] in [ms] milliseconds", a bare number, "stop", "set [v]"; the other inlets: the time for the next bare number, and the
    time between two steps. *)
Inductive ramp_in := To (v : f32) (ms : Z) | Go (v : f32) | Halt | SetTo (v : f32) | RampTime (ms : Z) | Grain (ms : Z).
Definition ramp_event (e : moment ramp_in) : event :=
  match e with
  | At t (To v ms) => In_ t 0 [EF v; whole ms]
  | At t (Go v) => In_ t 0 [EF v]
  | At t Halt => In_ t 0 [word "stop"]
  | At t (SetTo v) => In_ t 0 [word "set"; EF v]
  | At t (RampTime ms) => In_ t 1 [whole ms]
  | At t (Grain ms) => In_ t 2 [whole ms]
  | Next => Due
  end.

(** The value to be sent next, what is added at each step, the target, the milliseconds left, the time for the next bare number,
    the time between two steps, and when the next step is due. *)
Record ramp := mkRamp { r_value : f32; r_step : f32; r_goal : f32; r_left : Z; r_time : Z; r_grain : Z; r_due : option Z }.
Definition grain_of (ms : Z) : Z := if ms <=? 0 then 20 else ms.
(** The quotient, 0 for a zero divisor. *)
Definition ratio (a b : f32) : f32 := if negb (feqb b fzero) then fdiv a b else fzero.
(** What to add at each step to get from [a] to [b] in [ms] milliseconds with a step every [g]. *)
Definition step_to (a b : f32) (ms g : Z) : f32 := ratio (fsub b a) (ratio (of_int ms) (of_int g)).
(** One step at time [t], [q] samples per millisecond: the target as soon as no time is left. *)
Definition ramp_tick (q t : Z) (r : ramp) : out * ramp :=
  if r_left r <=? 0
  then ((t, O, [EF (r_goal r)]), mkRamp (r_goal r) (of_int 0) (r_goal r) 0 (r_time r) (r_grain r) None)
  else ((t, O, [EF (r_value r)]),
        mkRamp (fadd (r_value r) (r_step r)) (r_step r) (r_goal r) (r_left r - r_grain r) (r_time r) (r_grain r) (Some (t + r_grain r * q))).
Definition ramp_to (v : f32) (ms : Z) (r : ramp) : ramp :=
  mkRamp (r_value r) (step_to (r_value r) v ms (r_grain r)) v ms 0 (r_grain r) (r_due r).
Definition ramp_step (q : Z) (r : ramp) (e : moment ramp_in) : list out * ramp :=
  let one p := match p with (o, r') => ([o], r') end in
  match e with
  | At t (To v ms) => one (ramp_tick q t (ramp_to v ms r))
  | At t (Go v) => one (ramp_tick q t (ramp_to v (r_time r) r))
  | At t Halt => ([], mkRamp (r_value r) (r_step r) (r_goal r) (r_left r) (r_time r) (r_grain r) None)
  | At t (SetTo v) => ([], mkRamp v (of_int 0) (r_goal r) (r_left r) (r_time r) (r_grain r) None)
  | At t (RampTime ms) => ([], mkRamp (r_value r) (r_step r) (r_goal r) (r_left r) ms (r_grain r) (r_due r))
  | At t (Grain ms) => ([], mkRamp (r_value r) (r_step r) (r_goal r) (r_left r) (r_time r) (grain_of ms) (r_due r))
  | Next => match r_due r with Some t => one (ramp_tick q t r) | None => ([], r) end
  end.
Fixpoint ramp_spec (q : Z) (r : ramp) (l : list (moment ramp_in)) : list out :=
  match l with [] => [] | e :: l' => match ramp_step q r e with (o, r') => o ++ ramp_spec q r' l' end end.
(** When loaded: [line k g]. *)
Definition ramp_start (k : f32) (g : Z) : ramp := mkRamp k fzero (of_int 0) 0 0 (grain_of g) None.

(** Times whose number of samples the patch computes exactly; targets that are not taken for words, and not -0. *)
Definition ramp_words : list Z := [hv_string_to_hash (T "stop"); hv_string_to_hash (T "set"); hv_string_to_hash (T "symbol")].
Definition ramp_ms (q ms : Z) : Prop := 0 <= ms /\ 125 * q * ms <= 2 ^ 24.
Definition ramp_ok (E : env) (q : Z) (l : list (moment ramp_in)) : Prop :=
  Forall (fun e => match e with
                   | At _ (To v ms) => plain E ramp_words v /\ v <> B754_zero true /\ ramp_ms q ms
                   | At _ (Go v) => plain E ramp_words v /\ v <> B754_zero true
                   | At _ (SetTo v) => v <> B754_zero true
                   | At _ (RampTime ms) => ramp_ms q ms
                   | At _ (Grain ms) => - 2 ^ 24 <= ms /\ 125 * q * ms <= 2 ^ 24
                   | _ => True end) l.

(** ** What a ramp looks like from outside: [K] values, one every [g] milliseconds, then the target. *)
Definition ramp_after (q : Z) (r : ramp) (l : list (moment ramp_in)) : ramp := fold_left (fun r e => snd (ramp_step q r e)) l r.
Definition ramp_count (ms g : Z) : Z := (ms + g - 1) / g.
(** The [i]th value. *)
Definition ramp_value (a s : f32) (i : nat) : f32 := Nat.iter i (fun x => fadd x s) a.
(** What is sent in the course of [n] steps after the first. *)
Definition whole_ramp (q t : Z) (a b : f32) (ms g : Z) (n : nat) : list out :=
  let K := Z.to_nat (ramp_count ms g) in
  map (fun i => (t + Z.of_nat i * (g * q), O, [EF (ramp_value a (step_to a b ms g) i)])) (seq 0 (Nat.min (S n) K)) ++
  (if Nat.leb K n then [(t + Z.of_nat K * (g * q), O, [EF b])] else []).
