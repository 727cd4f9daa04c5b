(** What the filters' signal objects are told. *)
From Verif Require Export FilterLibs PatchSpec PatchSpec4.
From Coq Require Import Reals.
Open Scope Z_scope.

(** Division as in Pd: 0 for a zero divisor. *)
Definition quot (a b : f32) : f32 := if negb (feqb b fzero) then fdiv a b else fzero.
Definition rate (E : env) : f32 := narrow (e_sr E).
(** At least 0, at most 1. *)
Definition unit_clip (x : f32) : f32 := fmax (fmin x fone) fzero.
(** A number at the inlet for the cutoff. *)
Definition cutoff_event (e : Z * f32) : event := match e with (t, x) => In_ t 1 [EF x] end.

(** lop~: y = k x + (1 - k) y[-1] *)
Definition lop_coef (sr fc : f32) : f32 := unit_clip (fmul fc (quot two_pi sr)).
Definition lop_sends (sr : f32) (e : Z * f32) : list out :=
  match e with (t, fc) => let k := lop_coef sr fc in [(t, 1%nat, [EF (fsub k fone)]); (t, 0%nat, [EF k])] end.
(** hip~: w = x + k w[-1], y = (1 + k) / 2 (w - w[-1]) *)
Definition hip_coef (sr fc : f32) : f32 := unit_clip (fsub (of_int 1) (quot (fmul (fmax fc fone) two_pi) sr)).
Definition hip_gain (k : f32) : f32 := fmul (fadd k fone) (decimal 5 1).
Definition hip_sends (sr : f32) (e : Z * f32) : list out :=
  match e with (t, fc) => let k := hip_coef sr fc in [(t, 0%nat, [EF (hip_gain k)]); (t, 1%nat, [EF (fmul k (of_int (-1)))])] end.
(** bp~: y = g x - a1 y[-1] - a2 y[-2] with a1 = - 2 r cos w, a2 = r^2 *)
Inductive bp_in := BCutoff (fc : f32) | BQ (q : f32).
Definition bp_event (e : Z * bp_in) : event := match e with (t, BCutoff x) => In_ t 1 [EF x] | (t, BQ x) => In_ t 2 [EF x] end.
Definition bp_omega (sr fc : f32) : f32 := quot (fmul fc two_pi) sr.
Definition bp_width (sr fc q : f32) : f32 := fmin (quot (bp_omega sr fc) (fmax q (decimal 1 3))) fone.
Definition bp_radius (sr fc q : f32) : f32 := fadd (fmul (bp_width sr fc q) (of_int (-1))) fone.
Definition bp_sends (E : env) (t : Z) (fc q : f32) : list out :=
  let w := bp_omega (rate E) fc in let d := bp_width (rate E) fc q in let r := bp_radius (rate E) fc q in
  [(t, 2%nat, [EF (fmul (fmul (if fltb fzero r then e_pow E r (of_int 2) else fzero) (of_int (-1))) (of_int (-1)))]);
   (t, 1%nat, [EF (fmul (fmul r (fmul (unop_value (e_lib E) UnopModel.COS w) (of_int 2))) (of_int (-1)))]);
   (t, 0%nat, [EF (fmul (fmul d (of_int 2)) (fadd d (fmul r w)))])].
Fixpoint bp_spec (E : env) (fc q : f32) (l : list (Z * bp_in)) : list out :=
  match l with
  | [] => []
  | (t, BCutoff x) :: l' => bp_sends E t x q ++ bp_spec E x q l'
  | (t, BQ x) :: l' => bp_sends E t fc x ++ bp_spec E fc x l'
  end.

(** Sample rates from 1 kHz to 200 kHz. *)
Definition usual (sr : f32) : Prop := is_finite sr = true /\ (1000 <= val sr <= 200000)%R.
(** What a filter's signal object, told by [outs], holds for outlet [i]. *)
Definition told (outs : list out) (i : nat) (k : f32) : Prop := exists t, In (t, i, [EF k]) outs.
Definition quiet (x : f32) : Prop := is_finite x = true /\ (Rabs (val x) <= 1)%R.
