(** Sample-level meaning of delay-by-one and of sample-and-hold, independent of vectors. *)
From Verif Require Import Del1Model.
Section S.
Context {A : Type}.
Variable zero : A.
(** A stream of samples, [None] marking a clear. *)
Fixpoint delayed (prev : A) (l : list (option A)) : list A :=
  match l with
  | [] => []
  | Some x :: l' => prev :: delayed x l'
  | None :: l' => delayed zero l'
  end.
Definition samples {B} (f : B -> list A) (ops : list (del1_op B)) : list (option A) :=
  flat_map (fun o => match o with Block b => map Some (f b) | ClearMsg => [None] end) ops.

(** Sample and hold: [inl (x, trigger)] per sample, [inr a] for a set message. *)
Fixpoint held (s : A) (l : list (A * bool + A)) : list A :=
  match l with
  | [] => []
  | inl (x, t) :: l' => let s' := if t then x else s in s' :: held s' l'
  | inr a :: l' => held a l'
  end.
Definition sh_samples {B C} (f : B -> list A) (g : C -> list bool) (ops : list (sh_op B C)) : list (A * bool + A) :=
  flat_map (fun o => match o with ShBlock i t => map inl (combine (f i) (g t)) | ShSet a => [inr a] end) ops.
End S.
