(** What the signal objects are meant to compute. *)
From Verif Require Import SndModel.
From Coq Require Import Reals.
Local Open Scope Z_scope.

(** The processor's NaN is the encoding of a NaN. *)
Definition machine_ok (M : machine) : Prop := 0 <= t_nan M < 2 ^ 32 /\ of_bits (t_nan M) = B754_nan.
(** For the samples [xs] at its inlets the patch shows [y] at its first outlet. *)
Definition shows_sample (M : machine) (p : spatch) (xs : list f32) (y : f32) : Prop :=
  exists w, snd_out M p (map (enc (t_nan M)) xs) 0 = Ok w /\ of_bits w = y.
(** A signal object with two signal inlets, e.g. [/~]; with one. *)
Definition binop_sig (op : sop) : spatch := mkSnd [SIn 0; SIn 1; SObj op; SOut 0] [(0,0,2,0); (1,0,2,1); (2,0,3,0)]%nat.
Definition unop_sig (op : sop) : spatch := mkSnd [SIn 0; SObj op; SOut 0] [(0,0,1,0); (1,0,2,0)]%nat.

(** [y] is [x], limited to the range from [lo] to [hi]. *)
Definition limited (lo hi x y : f32) : Prop :=
  (fltb x lo = true -> feqb y lo = true) /\
  (fltb hi x = true -> feqb y hi = true) /\
  (fleb lo x = true -> fleb x hi = true -> feqb y x = true).
(** The fractional part of a real number. *)
Definition fractional (r : R) : R := (r - IZR (Flocq.Core.Raux.Zfloor r))%R.
Definition real (x : f32) : R := B2R x.
Definition within (d : R) (y : f32) (r : R) : Prop := is_finite y = true /\ (Rabs (real y - r) <= d)%R.
Definition neon (M : machine) : Prop := t_arch M = Neon7 \/ t_arch M = Neon8.
(** The position [x] in a table whose last position is [last]. *)
Definition position (last : Z) (x : f32) : R := Rmax (Rmin (real x) (IZR last)) 0.
Definition sample (t : list f32) (i : Z) : f32 := nth (Z.to_nat i) t fzero.
(** The builds that compute logarithms by hand. *)
Definition fast_arch (M : machine) : Prop := t_arch M = SSE \/ neon M.
(** The binary logarithm. *)
Definition log_2 (r : R) : R := (ln r / ln 2)%R.
(** The six comparisons. *)
Definition comparison (op : sop) : option (f32 -> f32 -> bool) :=
  match op with
  | Lt => Some fltb | Lte => Some fleb | Gt => Some (fun x y => fltb y x) | Gte => Some (fun x y => fleb y x)
  | Eq => Some feqb | Neq => Some (fun x y => negb (feqb x y))
  | _ => None
  end.
(** A machine of each kind. *)
Definition pc (a : arch) (fused : bool) : machine := mkMachine a fused 2143289344 (fun _ => fzero) (fun _ _ => fone) (fun x => x).
