(** Specification vocabulary for C27, independent of the model. *)
From Coq Require Import List Arith.
Import ListNotations.

Section Spec.
Context {A S : Type}.
(** The sample of channel c at frame j. *)
Definition audio := nat -> nat -> A.
(** Channel after channel. *)
Definition planar (channels frames : nat) (buf : list A) (x : audio) : Prop :=
  length buf = channels * frames /\
  forall c j, c < channels -> j < frames -> nth_error buf (c * frames + j) = Some (x c j).
(** Frame after frame. *)
Definition interleaved (channels frames : nat) (buf : list A) (x : audio) : Prop :=
  length buf = channels * frames /\
  forall c j, c < channels -> j < frames -> nth_error buf (channels * j + c) = Some (x c j).

(** Rendering: the audio is cut in blocks of N frames, fed to the patch one after the other. *)
Variable kernel : S -> list (list A) -> S * list (list A).
Variables (N C : nat) (d : A).
Definition block (x : audio) (k : nat) : list (list A) :=
  map (fun c => map (fun l => x c (k * N + l)) (seq 0 N)) (seq 0 C).
Fixpoint state_after (s : S) (x : audio) (k : nat) : S :=
  match k with 0 => s | Datatypes.S k' => fst (kernel (state_after s x k') (block x k')) end.
Definition rendered (s : S) (x : audio) : audio := fun c j =>
  nth (j mod N) (nth c (snd (kernel (state_after s x (j / N)) (block x (j / N)))) []) d.
(** The patch yields one block per output channel. *)
Definition well_shaped (D : nat) : Prop := forall s ins,
  length ins = C -> Forall (fun b => length b = N) ins ->
  length (snd (kernel s ins)) = D /\ Forall (fun b => length b = N) (snd (kernel s ins)).
End Spec.
Arguments audio : clear implicits.
