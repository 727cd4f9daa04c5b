(** Print hooks: what a user expects. *)
From Verif Require Export HookModel.
From Coq Require Import List.
Import ListNotations.
Open Scope Z_scope.
Definition c_text (s : list Z) : Prop := Forall (fun c => c <> 0) s.
(** Label, space, message. *)
Definition line (label message : list Z) : list Z := label ++ [32] ++ message.
