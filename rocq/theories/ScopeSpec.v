(** Names in nested patches: what a user relies on. *)
From Verif Require Export ScopeModel.
From Coq Require Import String List.
Import ListNotations.
Local Open Scope list_scope.
Open Scope Z_scope.

(** [a] is [g] or contains it. *)
Definition within (g a : place) : Prop := exists s, g = s ++ a.
(** A graph sees the objects of its own, and those registered above it that are not private. *)
Definition visible (r : registry) (name : text) (kinds : list kind) (g : place) (o : named) : Prop :=
  exists a, In (a, o) r /\ within g a /\ n_name o = name /\ In (n_kind o) kinds /\ (n_scope o = Private -> n_graph o = g).
(** [x] stands before [y] in [l]. *)
Definition before {A} (l : list A) (x y : A) : Prop := exists i j, (i < j)%nat /\ nth_error l i = Some x /\ nth_error l j = Some y.
(** The tables of a Pd patch. *)
Definition pd_table (o : named) : Prop := n_kind o = KTable /\ n_scope o = Public.
