(** Vocabulary for recording into tables. *)
From Verif Require Import TableModel TableSpec SigTabModel SigTabSpec RecorderModel Float64.
From Coq Require Import Reals.

(** A float message: NaN, or a number up to 2^31 in size. *)
Definition number_ok (f : f32) : Prop := f = B754_nan \/ is_finite f = true /\ (Rabs (B2R f) <= 2147483648)%R.
(** "start", "stop", bang and so on; not "set". *)
Definition msg_ok {V} (m : umsg V) : Prop := match m with UStart f => number_ok f | USet _ => False | _ => True end.
Definition blocks_ok {V} (N : Z) (blocks : list (list (Z * umsg V) * list V)) : Prop :=
  Forall (fun b => Forall (fun p => msg_ok (snd p)) (fst b) /\ vec N (snd b)) blocks.
(** Every message arrives in time: before the end of its block. *)
Fixpoint punctual {V} (N clock : Z) (blocks : list (list (Z * umsg V) * list V)) : Prop :=
  match blocks with
  | [] => True
  | (msgs, _) :: bs => Forall (fun p => (fst p < clock + N)%Z) msgs /\ punctual N (clock + N) bs
  end.
