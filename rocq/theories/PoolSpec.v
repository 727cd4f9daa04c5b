(** Specification vocabulary for the message pool, independent of the model.
    Only the operation language [pool_op] is shared with the model. *)
From Verif Require Import PoolModel.

(** Size classes by table: 32, 64, 128 and 256 bytes (README of the pool, HvMessagePool.h:25-33). *)
Definition size_class (b : Z) : option Z :=
  if b <=? 32 then Some 0 else if b <=? 64 then Some 1
  else if b <=? 128 then Some 2 else if b <=? 256 then Some 3 else None.

(** The messages a client holds after a history, oldest last: additions push, frees remove. *)
Fixpoint held (live : list (list Z)) (ops : list pool_op) : list (list Z) :=
  match ops with
  | [] => live
  | Add _ img :: ops' => held (img :: live) ops'
  | Free k :: ops' => held (firstn k live ++ skipn (S k) live) ops'
  end.

Definition in_class (i : Z) (img : list Z) : bool :=
  match size_class (zlen img) with Some j => j =? i | None => false end.
Definition count_class (i : Z) (l : list (list Z)) : Z := zlen (filter (in_class i) l).

(** 512-byte blocks needed to hold [n] chunks of class [i]. *)
Definition blocks_for (i n : Z) : Z := (n + (512 / (32 * 2 ^ i)) - 1) / (512 / (32 * 2 ^ i)).

(** A well-formed message image: header of 24 bytes at least, length stored in bytes 6 and 7. *)
Definition image (img : list Z) : Prop :=
  24 <= zlen img <= 65535 /\ nth 6 img 0 + 256 * nth 7 img 0 = zlen img.

(** An operation whose message is well-formed; the claimed size may be wrong. *)
Definition wf_op (o : pool_op) : Prop :=
  match o with Add srcSize img => 24 <= srcSize <= 65535 /\ image img | Free _ => True end.
(** ... and whose claimed size falls into the size class of the true size, at most 256 bytes. *)
Definition accurate_op (o : pool_op) : Prop :=
  match o with
  | Add srcSize img => 24 <= srcSize <= 256 /\ image img /\ size_class srcSize = size_class (zlen img)
  | Free _ => True
  end.
