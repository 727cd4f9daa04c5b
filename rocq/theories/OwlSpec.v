(** The parameters of an OWL patch: what a user relies on. *)
From Verif Require Export OwlModel.
From Coq Require Import String List QArith.
Import ListNotations.
Local Open Scope list_scope.
Open Scope Z_scope.

(** A receiver ([send] false) or sender belongs to the OWL parameter or button [k], with these limits and this default: it has the key [k]
    (r name @owl k lo hi d), or it has no key and is called Channel-k.  Names beginning with __ are hvcc's own receivers. *)
Definition wired (send : bool) (p : port) (k : text) (lo hi : Q) (d : option Q) : Prop :=
  (send = false -> forall s, p_name p <> T "__" ++ s) /\
  ((exists r, p_range p = Some r /\ r_raw r = Some k /\ k <> [] /\ lo = r_min r /\ hi = r_max r /\ d = Some (r_def r)) \/
   ((forall r k', p_range p = Some r -> r_raw r = Some k' -> k' = []) /\ (send = true -> p_range p <> None) /\
    p_name p = channel ++ k /\ lo = 0%Q /\ hi = 1%Q /\ d = None)).
(** No two ports have one key. *)
Definition keys_differ (receivers sends : list port) : Prop := NoDup (map w_key (make_jdata receivers sends)).
Definition button (k : text) : Prop := In k owl_buttons.
(** What is sent before a block: to every receiver of a parameter, in order, the parameter's value brought to its limits. *)
Inductive block_messages (value : text -> Q) : list port -> list (Z * Q) -> Prop :=
  | bm_nil : block_messages value [] []
  | bm_skip p ps l : (forall k lo hi d, wired false p k lo hi d -> button k) -> block_messages value ps l -> block_messages value (p :: ps) l
  | bm_send p ps l k lo hi d : wired false p k lo hi d -> ~ button k -> block_messages value ps l ->
      block_messages value (p :: ps) ((hv_string_to_hash (p_name p), (value k * (hi - lo) + lo)%Q) :: l).
(** r freq @owl A 20 2000 440 and so on *)
Definition with_key (n k : string) (lo hi d : Q) : port := mkPort (T n) (Some (mkRange (Some (T k)) lo hi d)).
