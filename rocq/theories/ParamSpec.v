(** Parameters: what a user sees. *)
From Verif Require Export ParamModel.
From Coq Require Import String List.
Import ListNotations.
Local Open Scope list_scope.
Open Scope Z_scope.

(** The default lies between the limits; no number is a NaN then. *)
Definition in_limits (lo hi d : f64) : Prop := Bleb lo d = true /\ Bleb d hi = true.
Definition mentions_raw (args : list text) : Prop := In (T "@raw") args \/ In (T "@owl") args.
(** The boxes that make a name a parameter or an event. *)
Definition exported (boxes : list box) (name : text) : Prop := exists b, In b boxes /\ b_name b = name /\ b_ext b <> None.
Definition names_apart (boxes : list box) : Prop :=
  forall b c, In b boxes -> In c boxes -> escape (b_name b) = escape (b_name c) -> b_name b = b_name c.
(** Every parameter box has attributes; see [boxes_have_attributes]. *)
Definition sound_box (b : box) : Prop := b_ext b = Some Param -> b_attrs b <> None.
(** What getParameterInfo says of a name. *)
Definition describes (boxes : list box) (i : info) : Prop :=
  exported boxes (i_name i) /\ i_hash i = py_get_hash (i_name i) /\
  (forall b e, In b boxes -> b_name b = i_name i -> b_ext b = Some e -> i_kind i = e) /\
  (i_kind i = Param -> forall b a, In b boxes -> b_name b = i_name i -> b_attrs b = Some a ->
     Beqb (i_min i) (a_min a) = true /\ Beqb (i_max i) (a_max a) = true /\ Beqb (i_default i) (a_default a) = true).

(** Texts that differ in the case of letters at most. *)
Definition same_letter (x y : Z) : Prop := x = y \/ 65 <= x <= 90 /\ y = x + 32 \/ 65 <= y <= 90 /\ x = y + 32.
Definition same_but_case (a b : text) : Prop := Forall2 same_letter a b.

(** The value of parameter [i] after [l]: what the host set last (input parameters) or the patch sent last (output parameters). *)
Definition hits (ins outs : list Z) (i : nat) (e : happening) : option f32 :=
  match e with
  | SetParam j v => if Nat.eqb i j && Nat.ltb i (length ins) then Some v else None
  | Sent h v => match index_hash h outs with Some j => if Nat.eqb i (length ins + j) then Some v else None | None => None end
  | _ => None
  end.
Fixpoint last_value (ins outs : list Z) (i : nat) (d : f32) (l : list happening) : f32 :=
  match l with [] => d | e :: r => last_value ins outs i (match hits ins outs i e with Some v => v | None => d end) r end.
