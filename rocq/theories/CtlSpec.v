(** What control objects should do, on the values of messages.  An object sees a history of
    (inlet, message); the specification sees only the inlet and the values, keeps its own state and
    says which values leave on which outlets; [None] marks inputs the specification does not cover. *)
From Verif Require Import MessageModel MessageSpec CtlModel.

(** Running an object over a history: what it emitted for each input. *)
Section Run.
Context {S : Type}.
Variable step : S -> Z -> msg -> outcome (S * emits).
Fixpoint obj_run (s : S) (h : list (Z * msg)) : outcome (S * list emits) :=
  match h with
  | [] => Ok (s, [])
  | (i, m) :: h' =>
    let! (s1, e) := step s i m in
    let! (s2, es) := obj_run s1 h' in
    Ok (s2, e :: es)
  end.
End Run.
Section SpecRun.
Context {T : Type}.
Variable step : T -> Z -> list value -> option (T * list (Z * list value)).
Fixpoint spec_run (t : T) (h : list (Z * list value)) : option (T * list (list (Z * list value))) :=
  match h with
  | [] => Some (t, [])
  | (i, vs) :: h' =>
    match step t i vs with
    | None => None
    | Some (t1, e) => match spec_run t1 h' with None => None | Some (t2, es) => Some (t2, e :: es) end
    end
  end.
End SpecRun.

(** The history of messages [h] carries the history of values [hv]. *)
Definition carries (mem : bytes) (h : list (Z * msg)) (hv : list (Z * list value)) : Prop :=
  Forall2 (fun x y => fst x = fst y /\ values mem (snd x) = Some (snd y) /\ m_n (snd x) < 65536) h hv.
(** What was emitted in answer to an input with timestamp [ts]: same outlets, the values, the timestamp. *)
Definition emits_are (mem : bytes) (ts : Z) (e : emits) (ve : list (Z * list value)) : Prop :=
  Forall2 (fun x y => fst x = fst y /\ values mem (snd x) = Some (snd y) /\ m_ts (snd x) = ts) e ve.
Definition all_emits_are (mem : bytes) (h : list (Z * msg)) (es : list emits) (ves : list (list (Z * list value))) : Prop :=
  length es = length h /\ length ves = length h /\
  forall k i m e ve, nth_error h k = Some (i, m) -> nth_error es k = Some e -> nth_error ves k = Some ve ->
    emits_are mem (m_ts m) e ve.

(** The hash a value is known by. *)
Definition key (v : value) : Z :=
  match v with VBang => BANG_HASH | VFloat b => b | VSymbol s => hv_string_to_hash s | VHash h => h end.

(** ** slice: start, length (not positive: everything) *)
Definition window (i n : Z) (vs : list value) : list value :=
  let r := skipn (Z.to_nat i) vs in if 0 <? n then firstn (Z.to_nat n) r else r.
Section SliceSpec.
Variable f2i : Z -> option Z.
Definition slice_spec (t : Z * Z) (inlet : Z) (vs : list value) : option (Z * Z * list (Z * list value)) :=
  let '(i, n) := t in
  match inlet, vs with
  | 0, _ => if i <? 0 then None else
            match window i n vs with [] => Some (t, [(1, [VBang])]) | w => Some (t, [(0, w)]) end
  | 1, VFloat a :: VFloat b :: _ => match f2i a, f2i b with Some a, Some b => Some ((a, b), []) | _, _ => None end
  | 1, VFloat a :: _ => match f2i a with Some a => Some ((a, n), []) | None => None end
  | 2, VFloat b :: _ => match f2i b with Some b => Some ((i, b), []) | None => None end
  | _, _ => Some (t, [])
  end.
End SliceSpec.

(** ** pack: one stored value per inlet; symbols become hashes; the first inlet takes a list and outputs *)
Definition pack_value (old v : value) : value :=
  match v with VBang => old | VSymbol s => VHash (hv_string_to_hash s) | _ => v end.
Fixpoint pack_list (old vs : list value) : list value :=
  match old, vs with
  | o :: old', v :: vs' => pack_value o v :: pack_list old' vs'
  | _, _ => old
  end.
Definition pack_spec (t : list value) (inlet : Z) (vs : list value) : option (list value * list (Z * list value)) :=
  if inlet =? 0 then let t' := pack_list t vs in Some (t', [(0, t')])
  else if (0 <? inlet) && (inlet <? zlen t) then
    match vs with
    | VSymbol _ :: _ => None
    | v :: _ => Some (set_nth (Z.to_nat inlet) (pack_value (nth (Z.to_nat inlet) t VBang) v) t, [])
    | [] => None
    end
  else None.

(** ** var: one stored value (a float or a hash) *)
Definition var_spec (t : value) (inlet : Z) (vs : list value) : option (value * list (Z * list value)) :=
  match inlet, vs with
  | 0, VBang :: _ => Some (t, [(0, [t])])
  | 0, v :: _ => Some (pack_value t v, [(0, vs)])
  | 1, v :: _ => Some (pack_value t v, [])
  | _, _ => Some (t, [])
  end.

(** ** if: routes the message right when the last number on inlet 1 was not zero *)
Definition if_spec (t : bool) (inlet : Z) (vs : list value) : option (bool * list (Z * list value)) :=
  match inlet, vs with
  | 0, _ => Some (t, [(if t then 1 else 0, vs)])
  | 1, VFloat b :: _ => Some (negb ((b =? 0) || (b =? 2147483648)), [])
  | _, _ => Some (t, [])
  end.

(** ** casts *)
Definition cast_spec (c : cast) (vs : list value) : list (Z * list value) :=
  match c, vs with
  | CastBang, _ => [(0, [VBang])]
  | CastFloat, VFloat b :: _ => [(0, [VFloat b])]
  | CastSymbol, VBang :: _ => [(0, [VSymbol [98; 97; 110; 103]])]
  | CastSymbol, VFloat _ :: _ => [(0, [VSymbol [102; 108; 111; 97; 116]])]
  | CastSymbol, VSymbol _ :: _ => [(0, vs)]
  | _, _ => []
  end.

(** ** message box: one value per box element *)
Inductive box_value := WNum (bits : Z) | WBang | WArg (k : Z) | WText (s : bytes).
Definition box_value_of (mem : bytes) (e : box_elem) (w : box_value) : Prop :=
  match e, w with
  | BNum b, WNum b' => b = b'
  | BBang, WBang => True
  | BArg k, WArg k' => k = k'
  | BSym p, WText s => cstr mem p = Ok s
  | _, _ => False
  end.
Definition fill (vs : list value) (w : box_value) : option value :=
  match w with
  | WNum b => Some (VFloat b)
  | WBang => Some VBang
  | WArg k => if 0 <? k then nth_error vs (Z.to_nat (k - 1)) else None
  | WText s => Some (VSymbol s)
  end.

(** The message a box must produce for incoming values [vs]; its reported size is what it needs. *)
Definition box_message (mem : bytes) (vs : list value) (b : list box_elem) (ts : Z) (m : msg) : Prop :=
  exists ws vals, Forall2 (box_value_of mem) b ws /\ Forall2 (fun w v => fill vs w = Some v) ws vals /\
    values mem m = Some vals /\ m_ts m = ts /\ (needed vals < 65536 -> m_nb m = needed vals).

(** ** switch-case *)
(** The element looked at: the first, or the second when the first is the word "symbol". *)
Definition selected (vs : list value) : option value :=
  match vs with
  | v :: vs' => if key v =? hv_string_to_hash [115; 121; 109; 98; 111; 108] then hd_error vs' else Some v
  | [] => None
  end.
(** A label names a value: the same float, the same text, a hash of that text; "bang" names a bang. *)
Definition names (c : label) (v : value) : Prop :=
  match c, v with
  | LNum b, VFloat b' => b = b'
  | LStr s, VBang => s = [98; 97; 110; 103]
  | LStr s, VSymbol s' => s = s'
  | LStr s, VHash h => hv_string_to_hash s = h
  | _, _ => False
  end.
Definition plain_label (c : label) : Prop :=
  match c with
  | LNum _ => True
  | LStr s => (forall b, In b s -> 0 < b < 128) /\ zlen s < 4294967296
  end.
