(** Model of noise~ : integer variables (HvSignalVar.c/.h, __var~i), the integer product and the conversion (HvMath.h) and noise~.pd. *)
From Verif Require Export SndModel.
Local Open Scope Z_scope.

(** HV_N_SIMD: samples per vector (HvUtils.h:66-110) *)
Definition lane_count (a : arch) : nat := match a with AVX => 8 | SSE | Neon7 | Neon8 => 4 | Scalar => 1 end%nat.
(** Signed 32 bit integers: what the instructions keep of a result. *)
Definition wrap32 (z : Z) : Z := (z + 2147483648) mod 4294967296 - 2147483648.
(** The C operators: overflow is undefined. *)
Definition c_int (z : Z) : outcome Z := guard! (-2147483648 <=? z) && (z <=? 2147483647) in Ok z.
Fixpoint all_ok {A} (l : list (outcome A)) : outcome (list A) :=
  match l with [] => Ok [] | a :: l' => let! x := a in let! r := all_ok l' in Ok (x :: r) end.

(** sVari_update, HvSignalVar.c:58-73: the lanes, first sample first. *)
Definition sVari_update (a : arch) (k step : Z) (reverse : bool) : outcome (list Z) :=
  match a with
  | Scalar => Ok [k]
  | _ =>
    let! l := all_ok (map (fun i => let! s := c_int (Z.of_nat i * step) in c_int (k + s)) (seq 0 (lane_count a))) in
    Ok (if reverse then rev l else l)
  end.
(** sVari_onMessage, HvSignalVar.c:80-84; [m]: a message of numbers. *)
Definition sVari_onMessage (a : arch) (v : list Z) (m : list f32) : outcome (list Z) :=
  match m with
  | [] => Ok v
  | k :: r =>
    let! k := to_int k in
    let! step := match r with [] => Ok 0 | s :: _ => to_int s end in
    sVari_update a k step (match r with [_; _] => true | _ => false end)
  end.
(** __hv_mul_i, HvMath.h:439-453: the vector instructions keep the low 32 bits, the scalar version multiplies ints. *)
Definition hv_mul_i (a : arch) (x y : Z) : outcome Z :=
  match a with Scalar => c_int (x * y) | _ => Ok (wrap32 (x * y)) end.
(** __hv_cast_if, HvMath.h:455-466 *)
Definition hv_cast_if (x : Z) : f32 := of_int x.

(** noise~.pd.  [v]: the variable x.  One vector: x is read (__varread~i, HLangVar.py:49-61), multiplied by 16807, written back
    (__varwrite~i, HLangVario.py:46-48), converted and multiplied by 4.65661e-10 (HvMath.h:426-437). *)
Definition noise_scale : f32 := decimal 465661 15.
Definition noise_block (a : arch) (v : list Z) : outcome (list Z * list f32) :=
  let! w := all_ok (map (fun x => hv_mul_i a x 16807) v) in
  Ok (w, map (fun x => fmul (hv_cast_if x) noise_scale) w).
(** A number at the inlet or from random (noise~.pd: the message box "$1 1"), or a vector of samples. *)
Inductive noise_event := NSeed (f : f32) | NBlock.
(** The samples, vector by vector.  Initially: __var~i 0 0 0. *)
Fixpoint noise_run (a : arch) (v : list Z) (l : list noise_event) : outcome (list (list f32)) :=
  match l with
  | [] => Ok []
  | NSeed f :: l' => let! w := sVari_onMessage a v [f; of_int 1] in noise_run a w l'
  | NBlock :: l' => let! (w, o) := noise_block a v in let! r := noise_run a w l' in Ok (o :: r)
  end.
Definition noise_init (a : arch) : list Z := repeat 0 (lane_count a).
Definition noise (a : arch) (l : list noise_event) : outcome (list (list f32)) := noise_run a (noise_init a) l.
