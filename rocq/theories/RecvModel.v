(** Model of named message receivers: grouping by the compiler
    (/repo/hvcc/core/hv2ir/HeavyGraph.py:742-786, LocalVars.py:51-92, HeavyGraph.py:962-975),
    the generated dispatch (/repo/hvcc/generators/ir2c/templates/Heavy_NAME.cpp:95-107) and the
    [send] object (/repo/hvcc/core/hv2ir/HIrSend.py:42-61, generators/ir2c/ControlSend.py:31-63).

    Every receiver and send has public scope, as in all patches made from Pd (PdReceiveObject.py:135,
    PdSendObject.py:130): all are registered with the top level graph.  Names are lists of character
    codes; r"\d" is taken as the ASCII digits.  A target is (object id, inlet).  The id of the grouped
    receiver of a name is represented by the position of the name in the dictionary. *)
From Verif Require Export Base HashModel.

Definition name := list Z.
Definition target := (Z * Z)%type.
Record receiver := mkRecv {
  r_name : name;
  r_prio : Z;                  (* args["priority"] *)
  r_extern : option Z;         (* args["extern"] *)
  r_attrs : list Z;            (* args["attributes"]; empty list: no attributes *)
  r_conns : list target        (* outlet_connections[0], in order *)
}.

Fixpoint name_eqb (a b : name) : bool :=
  match a, b with
  | [], [] => true
  | x :: a', y :: b' => (x =? y) && name_eqb a' b'
  | _, _ => false
  end.

(** A Python dictionary: keys in order of first insertion. *)
Definition dict (A : Type) := list (name * A).
Fixpoint dict_get {A} (d : dict A) (k : name) : option A :=
  match d with
  | [] => None
  | (k', v) :: d' => if name_eqb k k' then Some v else dict_get d' k
  end.
Fixpoint dict_set {A} (d : dict A) (k : name) (v : A) : dict A :=
  match d with
  | [] => [(k, v)]
  | (k', v') :: d' => if name_eqb k k' then (k', v) :: d' else (k', v') :: dict_set d' k v
  end.

(** register_object for each receiver, LocalVars.py:51-66 (receivers are neither static nor unique),
    read back by get_registered_objects_for_type, LocalVars.py:82-92. *)
Definition register (d : dict (list receiver)) (r : receiver) : dict (list receiver) :=
  dict_set d (r_name r) (match dict_get d (r_name r) with Some l => l | None => [] end ++ [r]).
Definition registered (rs : list receiver) : dict (list receiver) := fold_left register rs [].

(** receivers.sort(key=priority, reverse=True), HeavyGraph.py:776: stable, highest first. *)
Fixpoint insert_prio (r : receiver) (l : list receiver) : list receiver :=
  match l with
  | [] => [r]
  | x :: l' => if r_prio x <=? r_prio r then r :: l else x :: insert_prio r l'
  end.
Definition sort_prio (l : list receiver) : list receiver := fold_right insert_prio [] l.

(** The consistency checks, HeavyGraph.py:751-763. *)
Definition distinct_externs (l : list receiver) : list Z :=
  nodup Z.eq_dec (flat_map (fun r => match r_extern r with Some x => [x] | None => [] end) l).
Definition has_attrs (r : receiver) : bool := match r_attrs r with [] => false | _ => true end.
Definition consistent (l : list receiver) : bool :=
  (length (distinct_externs l) <=? 1)%nat &&
  match filter has_attrs l with
  | [] => true
  | r :: l' => forallb (fun x => name_eqb (r_attrs r) (r_attrs x)) l'
  end.

(** The grouped receiver: its connections, HeavyGraph.py:776-781 ([None]: the compiler reports an error). *)
Definition group (l : list receiver) : option (list target) :=
  if consistent l then Some (flat_map r_conns (sort_prio l)) else None.
Fixpoint group_all (d : dict (list receiver)) : option (dict (list target)) :=
  match d with
  | [] => Some []
  | (k, l) :: d' => match group l, group_all d' with Some c, Some e => Some ((k, c) :: e) | _, _ => None end
  end.
Definition group_control_receivers (rs : list receiver) : option (dict (list target)) := group_all (registered rs).

(** get_ir_receiver_dict, HeavyGraph.py:962-975: code name -> (hash, id of the grouped receiver). *)
Definition is_digit (c : Z) : bool := (48 <=? c) && (c <=? 57).
Definition code_name (k : name) : name := match k with c :: _ => if is_digit c then 95 :: k else k | [] => k end.
Fixpoint receiver_dict (g : dict (list target)) (id : Z) (acc : dict (Z * Z)) : option (dict (Z * Z)) :=
  match g with
  | [] => Some acc
  | (k, _) :: g' =>
    match py_get_hash k with
    | None => None
    | Some h => receiver_dict g' (id + 1) (dict_set acc (code_name k) (h, id))
    end
  end.

(** The generated switch, Heavy_NAME.cpp:95-107: duplicate case labels do not compile. *)
Fixpoint no_dup_labels (l : list Z) : bool :=
  match l with [] => true | h :: l' => negb (existsb (Z.eqb h) l') && no_dup_labels l' end.
Record program := mkProg { pr_switch : dict (Z * Z); pr_groups : dict (list target) }.
Definition compile (rs : list receiver) : option program :=
  match group_control_receivers rs with
  | None => None
  | Some g =>
    match receiver_dict g 0 [] with
    | None => None
    | Some d => if no_dup_labels (map (fun x => fst (snd x)) d) then Some (mkProg d g) else None
    end
  end.

(** scheduleMessageForReceiver: the grouped receivers for which the message is scheduled. *)
Fixpoint switch (d : dict (Z * Z)) (h : Z) : list Z :=
  match d with
  | [] => []
  | (_, (h', id)) :: d' => if h =? h' then [id] else switch d' h
  end.
Definition schedule (p : program) (h : Z) : list Z := switch (pr_switch p) h.

(** cReceive_<id>_sendMessage: the calls made, in order. *)
Definition receive_calls (p : program) (id : Z) : list target :=
  match nth_error (pr_groups p) (Z.to_nat id) with Some (_, c) => c | None => [] end.

(** The calls made by a [send] object, HIrSend.py:42-45: the receivers of that name. *)
Definition send_calls (p : program) (k : name) : list target :=
  match dict_get (pr_groups p) k with Some c => c | None => [] end.
