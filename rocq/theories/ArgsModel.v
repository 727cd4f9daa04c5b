(** Model of $-argument resolution:
    - HeavyGraph.resolve_arguments, /repo/hvcc/core/hv2ir/HeavyGraph.py:87-118 (heavy abstractions)
    - PdParser.__resolve_object_args, /repo/hvcc/interpreters/pd2hv/PdParser.py:676-730 (Pd abstractions).

    Strings are lists of character codes ('$' = 36, '\' = 92). *)
From Verif Require Export Base.

Definition text := list Z.
Definition DOLLAR : Z := 36.
Definition BACKSLASH : Z := 92.

(** str.startswith *)
Fixpoint starts (p s : text) : bool :=
  match p, s with
  | [], _ => true
  | x :: p', y :: s' => (x =? y) && starts p' s'
  | _, [] => false
  end.
(** s.find(p) > -1 *)
Fixpoint contains (p s : text) : bool :=
  starts p s || match s with [] => false | _ :: s' => contains p s' end.
(** s.replace(old, new) for a non-empty old: leftmost, non-overlapping.  [skip]: characters of the
    current match still to be dropped. *)
Fixpoint replace_from (old new s : text) (skip : nat) : text :=
  match s with
  | [] => []
  | c :: s' =>
    match skip with
    | S k => replace_from old new s' k
    | O => if starts old s then new ++ replace_from old new s' (length old - 1)
           else c :: replace_from old new s' 0
    end
  end.
Definition replace (s old new : text) : text := replace_from old new s 0.
Fixpoint text_eqb (a b : text) : bool :=
  match a, b with
  | [], [] => true
  | x :: a', y :: b' => (x =? y) && text_eqb a' b'
  | _, _ => false
  end.

(** ** hv2ir *)
(** A value of a JSON argument: a string, or something else ([id]) that prints as [s]. *)
Inductive pyval := PStr (s : text) | POther (id : Z) (s : text).
Definition py_str (v : pyval) : text := match v with PStr s => s | POther _ s => s end.

(** The loop over the graph arguments, HeavyGraph.py:96-109; starts with a string. *)
Fixpoint resolve_value (gargs : list (text * pyval)) (value : text) : pyval :=
  match gargs with
  | [] => PStr value
  | (k, v) :: rest =>
    let dollar_key := DOLLAR :: k in
    if contains dollar_key value then
      if text_eqb value dollar_key then v                                     (* l.102-104: break *)
      else resolve_value rest (replace value dollar_key (py_str v))           (* l.107 *)
    else resolve_value rest value
  end.

(** resolve_arguments: [None] when a Python exception escapes.  Popping from the dictionary while
    iterating over it (l.116) makes the next step of the iteration raise RuntimeError, also when
    the popped entry was the last one. *)
Fixpoint resolve_arguments (gargs : list (text * pyval)) (args : list (text * pyval)) : option (list (text * pyval)) :=
  match args with
  | [] => Some []
  | (key, value) :: rest =>
    match value with
    | PStr s =>
      if contains [DOLLAR] s then
        let v := resolve_value gargs s in
        if match v with PStr t => contains [DOLLAR] t | _ => false end then None
        else match resolve_arguments gargs rest with Some r => Some ((key, v) :: r) | None => None end
      else match resolve_arguments gargs rest with Some r => Some ((key, value) :: r) | None => None end
    | _ => match resolve_arguments gargs rest with Some r => Some ((key, value) :: r) | None => None end
    end
  end.

(** ** pd2hv *)
Definition is_digit (c : Z) : bool := (48 <=? c) && (c <=? 57).
(** RE_DOLLAR.findall(a), RE_DOLLAR = "$" followed by one or more digits (PdParser.py:58).
    [cur]: digits of the reference being read (None: not in one). *)
Fixpoint findall (s : text) (cur : option text) : list text :=
  let flush := match cur with Some (c :: d) => [c :: d] | _ => [] end in
  match s with
  | [] => flush
  | c :: s' =>
    if c =? DOLLAR then flush ++ findall s' (Some [])
    else match cur with
         | Some d => if is_digit c then findall s' (Some (d ++ [c])) else flush ++ findall s' None
         | None => findall s' None
         end
  end.
Definition int_of (m : text) : Z := fold_left (fun acc c => acc * 10 + (c - 48)) m 0.

(** A heavy argument declaration of a graph: required, str(default). *)
Record hv_arg := mkHvArg { ha_required : bool; ha_default : text }.
Record pd_graph := mkPdGraph { pg_args : list text; pg_hv : list hv_arg }.   (* str(obj_args[i]), hv_args *)

(** The body of the loop for one reference, PdParser.py:697-727, with raise_on_failure or is_root:
    [None]: the reference is reported as missing and left alone (l.705-708), or hv_args[-1] raises. *)
Definition pd_lookup (g : pd_graph) (m : text) : option text :=
  let x := int_of m in
  if x <? zlen (pg_args g) then nth_error (pg_args g) (Z.to_nat x)
  else if x - 1 <? zlen (pg_hv g) then
    match nth_error (pg_hv g) (Z.to_nat (if x =? 0 then zlen (pg_hv g) - 1 else x - 1)) with   (* hv_args[-1] is the last *)
    | Some h => if ha_required h then None else Some (ha_default h)
    | None => None
    end
  else Some [48].                                                            (* "0" *)
Definition pd_subst (g : pd_graph) (a m : text) : text :=
  match pd_lookup g m with
  | Some v => replace a (BACKSLASH :: DOLLAR :: m) v
  | None => a
  end.
(** for m in set(findall(a)): [order] is the order in which the set is iterated (arbitrary). *)
Definition pd_resolve (g : pd_graph) (a : text) (order : list text) : text := fold_left (pd_subst g) order a.
Definition set_order (order refs : list text) : Prop := NoDup order /\ (forall m, In m order <-> In m refs).
