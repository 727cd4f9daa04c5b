(** Names of objects in nested patches: registering and looking them up (hvcc/core/hv2ir/LocalVars.py, HeavyGraph.py), the tables of a patch
    and their reduction (HLangTable.py), and the dictionary of tables.  A graph is given by its place: the root is [], the parent of
    [i :: g] is [g]. *)
From Verif Require Export ParamModel.
From Coq Require Import String List.
Import ListNotations.
Local Open Scope list_scope.
Open Scope Z_scope.

Notation place := (list nat).
Inductive kind := KTable | KTableIr | KSend | KSendIr | KReceive | KReceiveIr.
Inductive scope := Private | Protected | Public.
Definition kind_eqb (a b : kind) : bool :=
  match a, b with
  | KTable, KTable | KTableIr, KTableIr | KSend, KSend | KSendIr, KSendIr | KReceive, KReceive | KReceiveIr, KReceiveIr => true
  | _, _ => false
  end.
Definition place_eqb (a b : place) : bool := if list_eq_dec Nat.eq_dec a b then true else false.
(** An object with a name: its identity, type, scope and the graph it is in. *)
Record named := mkNamed { n_id : Z; n_name : text; n_kind : kind; n_scope : scope; n_graph : place }.
(** All registered objects, in the order of registering, each with the graph whose LocalVars has it. *)
Definition registry := list (place * named).
(** __register_named_object, HeavyGraph.py:220-243; no object is static (annotations of Pd patches have a scope only). *)
Definition home (o : named) : place :=
  match n_scope o with
  | Private => n_graph o
  | Protected => match n_graph o with [] => [] | _ :: g => g end
  | Public => []
  end.
(** get_objects_for_name, LocalVars.py:78-83 *)
Definition objects_for_name (r : registry) (g : place) (name : text) (kinds : list kind) : list named :=
  map snd (filter (fun x => place_eqb (fst x) g && text_eqb name (n_name (snd x)) && existsb (kind_eqb (n_kind (snd x))) kinds) r).
(** register_object, LocalVars.py:56-70; [None]: HeavyException *)
Definition register (unique : bool) (r : registry) (o : named) : option registry :=
  match objects_for_name r (home o) (n_name o) [n_kind o] with
  | _ :: _ => if unique then None else Some (r ++ [(home o, o)])
  | [] => Some (r ++ [(home o, o)])
  end.
(** add_object, HeavyGraph.py:202-215 *)
Definition is_table (k : kind) : bool := match k with KTable | KTableIr => true | _ => false end.
Definition add_object (r : registry) (o : named) : option registry := register (is_table (n_kind o)) r o.
Fixpoint add_objects (r : registry) (l : list named) : option registry :=
  match l with [] => Some r | o :: l' => match add_object r o with Some r' => add_objects r' l' | None => None end end.
(** resolve_objects_for_name, HeavyGraph.py:270-292 *)
Fixpoint resolve_from (r : registry) (name : text) (kinds : list kind) (local g : place) : list named :=
  filter (fun o => negb (match n_scope o with Private => negb (place_eqb (n_graph o) local) | _ => false end)) (objects_for_name r g name kinds)
  ++ match g with [] => [] | _ :: g' => resolve_from r name kinds local g' end.
Definition resolve_objects (r : registry) (name : text) (kinds : list kind) (g : place) : list named := resolve_from r name kinds g g.
(** resolve_object_for_name, HeavyGraph.py:294-306 *)
Definition resolve_object (r : registry) (name : text) (kinds : list kind) (g : place) : option named := hd_error (resolve_objects r name kinds g).
(** HLangTable.reduce, HLangTable.py:52-58, and HeavyGraph.reduce, l.607-641: the new object has no annotations, so it is private; it has
    the id of the old one, which remove_object (l.334-352) leaves registered. *)
Definition reduced_table (o : named) : named := mkNamed (n_id o) (n_name o) KTableIr Private (n_graph o).
Definition reduce_table (r : registry) (o : named) : option registry := add_object r (reduced_table o).
Fixpoint reduce_tables (r : registry) (l : list named) : option registry :=
  match l with [] => Some r | o :: l' => match reduce_table r o with Some r' => reduce_tables r' l' | None => None end end.
(** HIrTabread.reduce, HIrTabread.py:36-47 (HIrTabwrite, HIrTabhead and HIrConvolution are the same): the id of the table. *)
Definition table_of (r : registry) (name : text) (g : place) : option Z := option_map n_id (resolve_object r name [KTable; KTableIr] g).
(** get_registered_objects_for_type, LocalVars.py:85-95, in the root graph: the first object of each name *)
Definition firsts (r : registry) (k : kind) : list (text * named) :=
  fold_left (fun d x => if place_eqb (fst x) [] && kind_eqb (n_kind (snd x)) k
                        then if existsb (fun y => text_eqb (n_name (snd x)) (fst y)) d then d else d ++ [(n_name (snd x), snd x)] else d) r [].
(** get_ir_table_dict, HeavyGraph.py:936-957 *)
Definition table_dict (r : registry) : list (text * Z) :=
  let d := fold_left (fun d x => dict_set (fst x) (snd x) d) (firsts r KTable) (firsts r KTableIr) in
  fold_left (fun e x => if existsb (fun y => text_eqb (escape (fst x)) (fst y)) e then e else e ++ [(escape (fst x), n_id (snd x))]) d [].
