(** Property theorems C12, C13 about name hashes. *)
From Verif Require Import HashModel HashProofs.

(** C12: for every ASCII name except "bang" the compile-time and run-time hashes agree. *)
Theorem hash_ascii_agree : forall x : list Z,
  (forall c, In c x -> 0 < c < 128) -> x <> [98; 97; 110; 103] (* "bang" *) -> zlen x < 4294967296 ->
  py_get_hash x = Some (hv_string_to_hash x).
Proof.
  intros x HA HB HL. apply hash_agree; [apply Forall_forall; exact HA| |exact HL].
  destruct (is_bang x) eqn:E; [|reflexivity]. exfalso. apply HB. unfold is_bang in E.
  repeat (match type of E with context [match ?v with _ => _ end] => destruct v; try discriminate end). reflexivity.
Qed.
Print Assumptions hash_ascii_agree.

(** The hash is a 32-bit number for every string (needed for the case labels). *)
Theorem hash_is_u32 : forall x, 0 <= hv_string_to_hash x < 4294967296.
Proof. exact hash_range. Qed.
Print Assumptions hash_is_u32.

(** C12 boundary: for "bang" the two differ (the compiler uses the hash of a bang element). *)
Theorem hash_bang_refuted :
  py_get_hash [98; 97; 110; 103] = Some 4294967295 /\ hv_string_to_hash [98; 97; 110; 103] <> 4294967295.
Proof. split; [reflexivity|]. vm_compute. discriminate. Qed.
Print Assumptions hash_bang_refuted.

(** C13 is false: "é" (U+00E9, bytes C3 A9) has different hashes at compile time and run time;
    and a name of four characters containing it makes the compiler raise an exception. *)
Theorem hash_non_ascii_refuted :
  (exists x bytes h, utf8s x = Some bytes /\ py_get_hash x = Some h /\ h <> hv_string_to_hash bytes) /\
  (exists x bytes, utf8s x = Some bytes /\ py_get_hash x = None).
Proof.
  split.
  - exists [233], [195; 169]. eexists. split; [reflexivity|]. split; [vm_compute; reflexivity|]. vm_compute. discriminate.
  - exists [99; 97; 102; 233]. eexists. split; vm_compute; reflexivity.
Qed.
Print Assumptions hash_non_ascii_refuted.

(** "hello" meets the hypotheses; "__hv_bang~" hashes to the constant used in process() (C09). *)
Example hash_example :
  py_get_hash [104; 101; 108; 108; 111] = Some (hv_string_to_hash [104; 101; 108; 108; 111]) /\
  hv_string_to_hash [95; 95; 104; 118; 95; 98; 97; 110; 103; 126] = 3709976811.
Proof. vm_compute. auto. Qed.
