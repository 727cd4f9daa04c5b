(** Who should get a named message, and in which order. *)
From Coq Require Import Permutation Sorting.Sorted.
From Verif Require Import RecvModel.

(** Receivers numbered by declaration order. *)
Definition numbered (rs : list receiver) : list (nat * receiver) := combine (seq 0 (length rs)) rs.
(** Higher priority first; at equal priority the earlier declared first. *)
Definition before (a b : nat * receiver) : Prop :=
  r_prio (snd b) < r_prio (snd a) \/ (r_prio (snd b) = r_prio (snd a) /\ (fst a < fst b)%nat).
(** [ts] is what the receivers named [k] are connected to, in that order. *)
Definition in_priority_order (rs : list receiver) (k : name) (ts : list target) : Prop :=
  exists order, Permutation order (filter (fun x => name_eqb k (r_name (snd x))) (numbered rs)) /\
    StronglySorted before order /\ ts = flat_map (fun x => r_conns (snd x)) order.
