(** What conversions of times should give. *)
From Verif Require Import Float64.
From Coq Require Import Reals.

(** [sr] is a whole number of samples per second. *)
Definition whole_rate (sr : f64) (r : Z) : Prop := is_finite sr = true /\ B2R sr = IZR r.
(** [sr] is a sample rate between [lo] and [hi] samples per second. *)
Definition rate_within (lo hi : R) (sr : f64) : Prop := is_finite sr = true /\ (lo <= B2R sr <= hi)%R.
(** The exact number of samples in [ms] milliseconds. *)
Definition samples_in (ms rate : R) : R := (ms * rate / 1000)%R.
(** [n] is [x] rounded down. *)
Definition rounded_down (x : R) (n : Z) : Prop := (IZR n <= x < IZR n + 1)%R.
