(** Specification of the message queue: a plain list of pending entries. *)
From Verif Require Import QueueModel PoolSpec.

Record entry := mkEntry {
  e_img : list Z;      (* the message bytes; the timestamp is the u32 in the first four bytes *)
  e_let : Z;
  e_send : Z;
  e_handle : Z         (* the handle given to the client *)
}.
Definition e_ts (e : entry) : Z := img_ts (e_img e).

(** Insert behind everything that is due no later, before everything due later. *)
Definition insert_stable (e : entry) (S : list entry) : list entry :=
  filter (fun x => e_ts x <=? e_ts e) S ++ [e] ++ filter (fun x => e_ts e <? e_ts x) S.

(** [Cancel h s] concerns the entries with handle [h] and destination [s] (any destination if 0). *)
Definition cancels (h s : Z) (e : entry) : bool := (e_handle e =? h) && ((s =? 0) || (e_send e =? s)).

(** The results [rs] of the operations [ops] are correct when the pending entries are [S];
    [S'] are the pending entries afterwards. *)
Fixpoint correct (S : list entry) (ops : list q_op) (rs : list q_res) (S' : list entry) : Prop :=
  match ops, rs with
  | [], [] => S' = S
  | Schedule _ img l s :: ops', RHandle a :: rs' =>
      ~ In a (map e_handle S) /\ correct (insert_stable (mkEntry img l s a) S) ops' rs' S'
  | Take :: ops', RTaken r :: rs' =>
      r = match S with [] => None | e :: _ => Some (e_img e, e_let e, e_send e) end /\
      correct (tl S) ops' rs' S'
  | Cancel h s :: ops', RCancelled b :: rs' =>
      b = existsb (cancels h s) S /\ correct (filter (fun e => negb (cancels h s e)) S) ops' rs' S'
  | Size :: ops', RSize n :: rs' => n = zlen S /\ correct S ops' rs' S'
  | Clear :: ops', RDone :: rs' => correct [] ops' rs' S'
  | ClearAfter t :: ops', RDone :: rs' => correct (filter (fun e => e_ts e <? t) S) ops' rs' S'
  | _, _ => False
  end.

Definition wf_qop (o : q_op) : Prop :=
  match o with Schedule srcSize img _ _ => 24 <= srcSize <= 65535 /\ image img | _ => True end.
Definition no_clear_after (o : q_op) : Prop := match o with ClearAfter _ => False | _ => True end.
