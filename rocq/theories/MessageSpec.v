(** Specification vocabulary for messages: a message denotes a list of values. *)
From Verif Require Import MessageModel.

Inductive value := VBang | VFloat (bits : Z) | VSymbol (s : bytes) | VHash (h : Z).

Definition value_of (mem : bytes) (e : elem) : option value :=
  match e with
  | Bang => Some VBang
  | Flt b => Some (VFloat b)
  | Sym p => match cstr mem p with Ok s => Some (VSymbol s) | _ => None end
  | Hsh h => Some (VHash h)
  end.
Fixpoint values_of (mem : bytes) (l : list (option elem)) : option (list value) :=
  match l with
  | [] => Some []
  | Some e :: l' => match value_of mem e, values_of mem l' with
                    | Some v, Some vs => Some (v :: vs) | _, _ => None end
  | None :: _ => None
  end.
(** The elements of a message: all [m_n m] of them are set and every symbol is a string. *)
Definition values (mem : bytes) (m : msg) : option (list value) :=
  if (0 <? m_n m) && (m_n m <=? zlen (m_el m)) then values_of mem (firstn (Z.to_nat (m_n m)) (m_el m)) else None.

(** Bytes a serialised message needs. *)
Definition text_bytes (v : value) : Z := match v with VSymbol s => zlen s + 1 | _ => 0 end.
Definition needed (vs : list value) : Z := 8 + 16 * zlen vs + fold_right Z.add 0 (map text_bytes vs).

(** Representable field values: 32-bit timestamp, floats and hashes, 16-bit count; addresses < 2^64. *)
Definition elem_ok (e : option elem) : Prop :=
  match e with Some (Flt b) => 0 <= b < 4294967296 | Some (Hsh h) => 0 <= h < 4294967296 | _ => True end.
Definition msg_ok (m : msg) : Prop :=
  0 <= m_ts m < 4294967296 /\ m_n m < 65536 /\ 0 <= m_nb m < 65536 /\ Forall elem_ok (m_el m).

(** The string of every symbol lies outside [lo, hi). *)
Definition symbols_outside (mem : bytes) (m : msg) (lo hi : Z) : Prop :=
  forall p s, In (Some (Sym p)) (m_el m) -> cstr mem p = Ok s -> p + zlen s < lo \/ hi <= p.
(** The string of every symbol, with its NUL, lies inside [lo, hi). *)
Definition symbols_inside (mem : bytes) (m : msg) (lo hi : Z) : Prop :=
  forall p, In (Some (Sym p)) (m_el m) -> exists s, cstr mem p = Ok s /\ lo <= p /\ p + zlen s + 1 <= hi.

(** Memory equal outside [lo, hi). *)
Definition same_outside (m1 m2 : bytes) (lo hi : Z) : Prop :=
  length m1 = length m2 /\ forall k, Z.of_nat k < lo \/ hi <= Z.of_nat k -> nth_error m1 k = nth_error m2 k.

(** Building a message: setter calls on it. *)
Inductive set_op := SBang (i : Z) | SFloat (i bits : Z) | SHash (i h : Z) | SSymbol (i p : Z).
Definition do_set (mem : bytes) (m : msg) (o : set_op) : outcome msg :=
  match o with
  | SBang i => msg_setBang m i
  | SFloat i b => msg_setFloat m i b
  | SHash i h => msg_setHash m i h
  | SSymbol i p => msg_setSymbol mem m i p
  end.
Fixpoint do_sets (mem : bytes) (m : msg) (ops : list set_op) : outcome msg :=
  match ops with [] => Ok m | o :: ops' => let! m1 := do_set mem m o in do_sets mem m1 ops' end.
Definition op_index (o : set_op) : Z := match o with SBang i => i | SFloat i _ => i | SHash i _ => i | SSymbol i _ => i end.
Definition op_elem (o : set_op) : elem :=
  match o with SBang _ => Bang | SFloat _ b => Flt b | SHash _ h => Hsh h | SSymbol _ p => Sym p end.
(** Bytes of text named by the setter calls (strings with their NUL). *)
Definition op_text (mem : bytes) (o : set_op) : Z :=
  match o with SSymbol _ p => match cstr mem p with Ok s => zlen s + 1 | _ => 0 end | _ => 0 end.
Definition ops_text (mem : bytes) (ops : list set_op) : Z := fold_right Z.add 0 (map (op_text mem) ops).
Definition op_ok (o : set_op) : Prop :=
  match o with SFloat _ b => 0 <= b < 4294967296 | SHash _ h => 0 <= h < 4294967296 | _ => True end.

(** The format letter of an element: b f h s. *)
Definition letter (v : value) : Z :=
  match v with VBang => 98 | VFloat _ => 102 | VHash _ => 104 | VSymbol _ => 115 end.

(** Printed form of a value, and words separated by single spaces. *)
Definition printed (fmt_g : Z -> bytes) (v : value) : bytes :=
  match v with
  | VBang => [98; 97; 110; 103]
  | VFloat b => fmt_g b
  | VSymbol s => s
  | VHash h => [48; 120] ++ hex 8 h []
  end.
Fixpoint spaced (l : list bytes) : bytes :=
  match l with [] => [] | [w] => w | w :: l' => w ++ [32] ++ spaced l' end.
