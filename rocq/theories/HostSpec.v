(** Specification vocabulary for the host queues. *)
From Verif Require Import HostModel MessageSpec.

(** What a call means: the receiver, the time and the values. *)
Definition call_time (c : call) : Z :=
  match c_delay c with Some d => u32 (c_clock c + d) | None => m_ts (c_msg c) end.
Definition meaning (c : call) : option (Z * Z * list value) :=
  match values (c_mem c) (c_msg c) with
  | Some vs => Some (c_hash c, call_time c, vs)
  | None => None
  end.
(** What a reader finds in a record: receiver, time and values. *)
Definition found (base : Z) (r : bytes) : option (Z * Z * list value) :=
  match read_record base r with
  | Ok (h, m) => match values (repeat 0 (Z.to_nat base) ++ r) m with
                 | Some vs => Some (h, m_ts m, vs)
                 | None => None
                 end
  | _ => None
  end.

(** A call with a proper message: all elements set, all symbols are strings, the size it reports
    covers it (MessageProps.message_copy_allocates_enough: true of every message built by the
    setters with less than 2^16 bytes) and is a multiple of four (C02: the pipe needs that; true of
    every message without symbols). *)
Definition sendable (base : Z) (c : call) : Prop :=
  zlen (c_mem c) = base /\ zlen (c_old c) = pair_size (c_msg c) /\ 0 <= c_hash c < 4294967296 /\
  msg_ok (c_msg c) /\ m_nb (c_msg c) mod 4 = 0 /\
  exists vs, values (c_mem c) (c_msg c) = Some vs /\ needed vs <= m_nb (c_msg c).

(** [l1] is [l2] with some elements left out. *)
Inductive subseq {A} : list A -> list A -> Prop :=
| sub_nil : subseq [] []
| sub_skip x l1 l2 : subseq l1 l2 -> subseq l1 (x :: l2)
| sub_keep x l1 l2 : subseq l1 l2 -> subseq (x :: l1) (x :: l2).

Definition hcalls (ls : list hlabel) : list call :=
  flat_map (fun l => match l with HCall c => [c] | _ => [] end) ls.
Definition ocalls (ls : list olabel) : list call :=
  flat_map (fun l => match l with OCall c => [c] | _ => [] end) ls.

(** What getNextSentMessage returned for call [c]: its destination, and (when it has no symbols) a
    self-contained message block with its time and values. *)
Definition no_symbols (vs : list value) : Prop := forall t, ~ In (VSymbol t) vs.
Definition returned (res : Z * bytes) (c : call) : Prop :=
  fst res = c_hash c /\ zlen (snd res) = pair_size (c_msg c) /\
  forall vs, values (c_mem c) (c_msg c) = Some vs -> no_symbols vs ->
  exists m', load_msg (snd res) 0 = Ok m' /\ m_ts m' = call_time c /\ values [] m' = Some vs.

(** Where the record that the reader takes next starts. *)
Definition next_pos (s : pipe) : Z := if rd32 (buf s) (rh s) =? HLP_LOOP then 0 else rh s.
(** The oldest record that was sent and not yet read. *)
Definition next_record (s : pipe) (r : bytes) : Prop := exists rest, sent s = recv s ++ r :: rest.
