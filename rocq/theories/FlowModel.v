(** Model of how hv2ir and ir2c turn message connections into code:
    - connection bookkeeping: HeavyLangObject.add_connection/remove_connection/replace_connection
      (/repo/hvcc/core/hv2ir/HeavyLangObject.py:231-270), HeavyGraph.connect_objects/
      disconnect_objects/update_connection/remove_object (HeavyGraph.py:120-168, 334-351);
    - HeavyGraph.reduce (HeavyGraph.py:605-643) for objects that become one IR object
      (get_connection_move_list, HeavyLangObject.py:272-283) and for triggers (HLangSequence.reduce,
      HLangSequence.py:41-81);
    - the message lists of the IR: HeavyIrObject.get_ir_on_message/get_ir_control_list
      (HeavyIrObject.py:216-243), HeavyGraph.get_ir_on_message (HeavyGraph.py:928-934),
      HIrOutlet.get_ir_on_message (HIrOutlet.py:37-43);
    - the generated sendMessage functions: HeavyObject.get_C_impl
      (/repo/hvcc/generators/ir2c/HeavyObject.py:80-111).

    Objects (and graphs) are numbers, lets are natural numbers.  [None]: a Python exception.
    Not modelled: objects that are dropped or become several objects (binary operators with
    signals, adc, dac), the text of the generated C. *)
From Verif Require Export Base.

(** Connection.py:24-45; [c_ctl]: is_control. *)
Record conn := mkConn { c_from : Z; c_out : nat; c_to : Z; c_in : nat; c_ctl : bool }.
(** Connection.__eq__ (Connection.py:80-81): equality of the hashes of the five fields, taken to be
    equality of the fields. *)
Definition conn_eqb (a b : conn) : bool :=
  (c_from a =? c_from b) && (c_out a =? c_out b)%nat && (c_to a =? c_to b) && (c_in a =? c_in b)%nat && Bool.eqb (c_ctl a) (c_ctl b).

(** inlet_connections and outlet_connections of every object. *)
Definition lets := Z -> nat -> list conn.
Definition set_let (f : lets) (o : Z) (i : nat) (l : list conn) : lets :=
  fun o' i' => if (o' =? o) && (i' =? i)%nat then l else f o' i'.
Record graph := mkGraph { g_ins : lets; g_outs : lets }.

(** list.remove(c): ValueError when absent. *)
Fixpoint remove1 (c : conn) (l : list conn) : option (list conn) :=
  match l with
  | [] => None
  | x :: l' => if conn_eqb x c then Some l' else option_map (cons x) (remove1 c l')
  end.
(** cc[0:i] + n_list + cc[i+1:] with i = cc.index(c). *)
Fixpoint replace1 (c : conn) (n : list conn) (l : list conn) : option (list conn) :=
  match l with
  | [] => None
  | x :: l' => if conn_eqb x c then Some (n ++ l') else option_map (cons x) (replace1 c n l')
  end.

Definition with_ins (g : graph) (o : Z) (i : nat) (l : option (list conn)) : option graph :=
  option_map (fun l => mkGraph (set_let (g_ins g) o i l) (g_outs g)) l.
Definition with_outs (g : graph) (o : Z) (i : nat) (l : option (list conn)) : option graph :=
  option_map (fun l => mkGraph (g_ins g) (set_let (g_outs g) o i l)) l.

(** HeavyLangObject.py:231-242 *)
Definition add_connection (o : Z) (c : conn) (g : graph) : option graph :=
  if c_to c =? o then with_ins g o (c_in c) (Some (g_ins g o (c_in c) ++ [c]))
  else if c_from c =? o then with_outs g o (c_out c) (Some (g_outs g o (c_out c) ++ [c]))
  else None.
(** HeavyLangObject.py:244-252 *)
Definition remove_connection (o : Z) (c : conn) (g : graph) : option graph :=
  if c_to c =? o then with_ins g o (c_in c) (remove1 c (g_ins g o (c_in c)))
  else if c_from c =? o then with_outs g o (c_out c) (remove1 c (g_outs g o (c_out c)))
  else None.
(** HeavyLangObject.py:254-270 *)
Definition replace_connection (o : Z) (c : conn) (n : list conn) (g : graph) : option graph :=
  if c_from c =? o then with_outs g o (c_out c) (replace1 c n (g_outs g o (c_out c)))
  else if c_to c =? o then with_ins g o (c_in c) (option_map (fun l => l ++ n) (remove1 c (g_ins g o (c_in c))))
  else None.

Definition gbind (g : option graph) (f : graph -> option graph) : option graph :=
  match g with Some g => f g | None => None end.
Definition gfold {A} (f : A -> graph -> option graph) (l : list A) (g : option graph) : option graph :=
  fold_left (fun g a => gbind g (f a)) l g.

(** HeavyGraph.py:120-133, 135-142 *)
Definition connect_objects (c : conn) (g : graph) : option graph :=
  gbind (add_connection (c_from c) c g) (add_connection (c_to c) c).
Definition disconnect_objects (c : conn) (g : graph) : option graph :=
  gbind (remove_connection (c_from c) c g) (remove_connection (c_to c) c).
(** HeavyGraph.py:144-168 for an existing connection c *)
Definition update_connection (cn : conn * list conn) (g : graph) : option graph :=
  let (c, n) := cn in
  match n with
  | [] => disconnect_objects c g
  | _ =>
    if forallb (fun x => c_from c =? c_from x) n then
      gfold (fun x => add_connection (c_to x) x) n
        (gbind (replace_connection (c_from c) c n g) (remove_connection (c_to c) c))
    else if forallb (fun x => c_to c =? c_to x) n then
      gfold (fun x => add_connection (c_from x) x) n
        (gbind (replace_connection (c_to c) c n g) (remove_connection (c_from c) c))
    else None
  end.
(** HeavyGraph.py:334-343, for an object with [nin] inlets and [nout] outlets.  The list of a let
    is copied when its loop starts. *)
Definition remove_object (o : Z) (nin nout : nat) (g : graph) : option graph :=
  gfold (fun j g => gfold disconnect_objects (g_outs g o j) (Some g)) (seq O nout)
    (gfold (fun i g => gfold disconnect_objects (g_ins g o i) (Some g)) (seq O nin) (Some g)).

(** get_connection_move_list *)
Definition to_obj (c : conn) (o : Z) : conn := mkConn (c_from c) (c_out c) o (c_in c) (c_ctl c).
Definition from_obj (c : conn) (o : Z) : conn := mkConn o (c_out c) (c_to c) (c_in c) (c_ctl c).
Definition move_list (g : graph) (o n : Z) (nin nout : nat) : list (conn * list conn) :=
  map (fun c => (c, [to_obj c n])) (flat_map (g_ins g o) (seq O nin)) ++
  map (fun c => (c, [from_obj c n])) (flat_map (g_outs g o) (seq O nout)).

(** HLangSequence.reduce.  [casts]: for each outlet the new cast object, None for "a"/"l".
    range(num_outlets - 1, -1, -1) is [rev (indexed casts)]. *)
Definition indexed {A} (l : list A) : list (nat * A) := combine (seq O (length l)) l.
Definition fan_out (g : graph) (o : Z) (casts : list (option Z)) (ci : conn) : list conn :=
  flat_map (fun ik => match snd ik with
                      | Some x => [mkConn (c_from ci) (c_out ci) x O (c_ctl ci)]
                      | None => map (fun co => mkConn (c_from ci) (c_out ci) (c_to co) (c_in co) (c_ctl ci)) (g_outs g o (fst ik))
                      end) (rev (indexed casts)).
Definition seq_list (g : graph) (o : Z) (casts : list (option Z)) : list (conn * list conn) :=
  map (fun ci => (ci, fan_out g o casts ci)) (g_ins g o O) ++
  flat_map (fun ik => match snd ik with
                      | Some x => map (fun c => (c, [mkConn x O (c_to c) (c_in c) (c_ctl c)])) (g_outs g o (fst ik))
                      | None => []
                      end) (rev (indexed casts)).

(** One iteration of the loop of HeavyGraph.reduce, l.613-640.  Objects that reduce to themselves
    are left alone and are not listed. *)
Inductive action :=
| ARename (n : Z) (nin nout : nat)          (* becomes the single IR object n *)
| ASeq (casts : list (option Z)).           (* a trigger *)
Definition reduce_object (oa : Z * action) (g : graph) : option graph :=
  match oa with
  | (o, ARename n nin nout) => gbind (gfold update_connection (move_list g o n nin nout) (Some g)) (remove_object o nin nout)
  | (o, ASeq casts) => gbind (gfold update_connection (seq_list g o casts) (Some g)) (remove_object o 1%nat (length casts))
  end.
(** All graphs are reduced, subgraphs when the loop reaches them: some order of all the objects. *)
Definition reduce (todo : list (Z * action)) (g : graph) : option graph := gfold reduce_object todo (Some g).

(** ** The message lists of the IR *)
(** What an object is: a subgraph (with its inlet objects), an outlet object (of a graph, with its
    index), an inlet object, or something that has code. *)
Inductive place := PObject | PSub (inlets : nat -> Z) | POutlet (graph : Z) (index : nat) | PInlet.
Definition control_targets (g : graph) (o : Z) (i : nat) : list (Z * nat) :=
  map (fun c => (c_to c, c_in c)) (filter c_ctl (g_outs g o i)).
(** get_ir_on_message(inlet_index).  [fuel]: Python recursion limit.  Outlet objects follow all the
    connections of their graph's outlet, control or not; connections of one outlet have one type,
    so this model filters there too. *)
Fixpoint on_message (place_of : Z -> place) (g : graph) (fuel : nat) (oi : Z * nat) : option (list (Z * nat)) :=
  match fuel with
  | O => None
  | S fuel =>
    let all := fold_right (fun t acc => match on_message place_of g fuel t, acc with Some a, Some b => Some (a ++ b) | _, _ => None end) (Some []) in
    match place_of (fst oi) with
    | PSub inlets => all (control_targets g (inlets (snd oi)) O)
    | POutlet gr idx => all (control_targets g gr idx)
    | _ => Some [oi]
    end
  end.
(** The onMessage entry of one outlet in get_ir_control_list. *)
Definition on_messages (place_of : Z -> place) (g : graph) (fuel : nat) (o : Z) (i : nat) : option (list (Z * nat)) :=
  fold_right (fun t acc => match on_message place_of g fuel t, acc with Some a, Some b => Some (a ++ b) | _, _ => None end) (Some []) (control_targets g o i).

(** ** The generated function *)
(** X_sendMessage(_c, letIn, m): calls of onMessage functions, either unconditionally or in a switch. *)
Inductive cfun := CCalls (l : list (Z * nat)) | CSwitch (cases : list (nat * list (Z * nat))).
Definition c_impl (on_message_list : list (list (Z * nat))) : cfun :=
  match on_message_list with
  | [l] => CCalls l
  | ll => CSwitch (combine (seq O (length ll)) ll)
  end.
(** The calls made for a value of letIn. *)
Definition c_calls (f : cfun) (letIn : nat) : list (Z * nat) :=
  match f with
  | CCalls l => l
  | CSwitch cases => match find (fun x => (fst x =? letIn)%nat) cases with Some (_, l) => l | None => [] end
  end.
