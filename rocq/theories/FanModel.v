(** trigger and pack of any size, with an inlet or outlet at each of theirs, so that they can be observed.  route, select and
    unpack of any size are in PatchLibs. *)
From Verif Require Export PatchLibs.
Open Scope Z_scope.

Fixpoint outlets (n i : nat) : list item := match n with O => [] | S k => IOut (Z.of_nat i) :: outlets k (S i) end.
Fixpoint inlets (n i : nat) : list item := match n with O => [] | S k => IIn (Z.of_nat i) :: inlets k (S i) end.
(** PdTriggerObject.py:38-60, HLangSequence.py:30-80 (see [PSeq]); the cast "s" is not modelled *)
Definition trigger_pd (cs : list cast) : patch :=
  mkPatch (IIn 0 :: IObj (PSeq cs) :: outlets (List.length cs) 0)
          ((0, 0, 1, 0)%nat :: map (fun i => (1, i, 2 + i, 0)%nat) (seq 0 (List.length cs))).
(** PdPackObject.py:32-60: the initial values *)
Definition pack_pd (vals : list f32) : patch :=
  mkPatch (IObj (PPack (map EF vals)) :: IOut 0 :: inlets (List.length vals) 0)
          ((0, 0, 1, 0)%nat :: map (fun i => (2 + i, 0, 0, i)%nat) (seq 0 (List.length vals))).
