(** Vocabulary for noise~. *)
From Verif Require Export NoiseModel.
From Coq Require Import Reals.
Local Open Scope Z_scope.

(** A number that sets the state: its integer part leaves room for the lanes. *)
Definition seed_ok (f : f32) : Prop := is_finite f = true /\ -2147483648 <= Btrunc f <= 2147483640.
Definition simd (a : arch) : Prop := a <> Scalar.
Definition seeds_ok (l : list noise_event) : Prop := forall f, In (NSeed f) l -> seed_ok f.
Definition blocks (n : nat) : list noise_event := repeat NBlock n.
(** The number of vectors computed. *)
Definition count (l : list noise_event) : nat := List.length (filter (fun e => match e with NBlock => true | _ => false end) l).
(** Vector [i] after the events [pre]. *)
Definition vector (o : list (list f32)) (pre : list noise_event) (i : nat) : list f32 := nth (count pre + i) o [].
