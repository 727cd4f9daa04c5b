(** The board glue of the Daisy generator: which component of the board a parameter of the patch belongs to.
    c2daisy/parameters.py (de_alias, verify_param_exists, get_root_component, get_component_mapping, verify_param_used, parse_parameters)
    and the send hook of c2daisy/templates/HeavyDaisy.cpp.  Texts are lists of ASCII codes. *)
From Verif Require Export ArgsModel ExprModel HashModel.
From Coq Require Import String List.
Import ListNotations.
Local Open Scope list_scope.
Open Scope Z_scope.
Notation text := (list Z).

(** A name of a mapping, such as "{name}_press". *)
Inductive part := Txt (t : text) | Name.
(** str.format_map({'name': n}) *)
Definition format (f : list part) (n : text) : text := flat_map (fun p => match p with Txt t => t | Name => n end) f.
(** A mapping of a component (json2daisy/resources/component_defs.json): "name", "where", "get", "set"; "bool" is left out.  The "get" and
    "set" templates are opaque texts: what format_map makes of them is not modelled. *)
Record mapping := mkMapping { m_name : list part; m_where : option text; m_get : option text; m_set : option text }.
(** A component: "component", "name", "direction", "is_parent", "mapping". *)
Record component := mkComponent { c_kind : text; c_name : text; c_dir : option text; c_parent : bool; c_map : list mapping }.
Inductive error := NameError (name : text) | TypeError (name : text) | KeyError.
Inductive result (A : Type) := Fine (a : A) | Raise (e : error).
Arguments Fine {A}. Arguments Raise {A}.
Definition rbind {A B} (x : result A) (f : A -> result B) : result B := match x with Fine a => f a | Raise e => Raise e end.
Fixpoint each {A B} (f : A -> result B) (l : list A) : result (list B) :=
  match l with [] => Fine [] | a :: r => rbind (f a) (fun b => rbind (each f r) (fun t => Fine (b :: t))) end.

Definition is_cv (c : component) : bool := text_eqb (c_kind c) (T "CVOuts").
(** parameters.py:33-34 *)
Definition variants (c : component) : list text := map (fun m => format (m_name m) (c_name c)) (c_map c).
(** The test of l.27-34, 49-55 and 61-67: does the name belong to the component? *)
Definition owns (c : component) (name : text) : bool := if is_cv c then text_eqb name (c_name c) else existsb (text_eqb name) (variants c).

(** verify_param_exists, l.23-42 *)
Fixpoint verify_param_exists (input : bool) (name orig : text) (cs : list component) : result unit :=
  match cs with
  | [] => Raise (NameError orig)
  | c :: r =>
      if is_cv c then
        if text_eqb name (c_name c) then if input then Raise (TypeError orig) else Fine tt else verify_param_exists input name orig r
      else if existsb (text_eqb name) (variants c) then
        match c_dir c with
        | None => Raise KeyError
        | Some d => if input && text_eqb d (T "output") || negb input && text_eqb d (T "input") then Raise (TypeError orig) else Fine tt
        end
      else verify_param_exists input name orig r
  end.
(** get_root_component, l.58-68; for CVOuts the variant is the name of the component. *)
Fixpoint get_root_component (variant orig : text) (cs : list component) : result text :=
  match cs with
  | [] => Raise (NameError orig)
  | c :: r => if owns c variant then Fine (c_name c) else get_root_component variant orig r
  end.
(** x in s, for strings *)
Fixpoint starts (x s : text) : bool :=
  match x, s with [], _ => true | a :: x', b :: s' => (a =? b) && starts x' s' | _, _ => false end.
Fixpoint inside (x s : text) : bool := starts x s || match s with [] => false | _ :: s' => inside x s' end.
(** get_component_mapping, l.71-84 *)
Definition get_component_mapping (variant orig : text) (c : component) : result mapping :=
  match find (fun m => if is_cv c then inside (format (m_name m) []) (c_name c) else text_eqb (format (m_name m) (c_name c)) variant) (c_map c) with
  | Some m => Fine m
  | None => Raise (NameError orig)
  end.
(** str.lower, for ASCII *)
Definition lower_char (c : Z) : Z := if (65 <=? c) && (c <=? 90) then c + 32 else c.
Definition lower (s : text) : text := map lower_char s.
(** list(filter_match(components, 'name', n))[0]; [None]: IndexError *)
Definition by_name (n : text) (cs : list component) : option component := find (fun c => text_eqb (c_name c) n) cs.
(** The aliases of a board: a dictionary, its keys are distinct. *)
Notation aliases := (list (text * text)).
Definition lookup (k : text) (d : aliases) : option text := option_map snd (find (fun x => text_eqb (fst x) k) d).
(** One round of the loop of de_alias, l.119-129: the name, if one is found. *)
Definition alias_round (cs : list component) (low : text) (a : text * text) : option text :=
  if inside (fst a) low then
    match by_name (snd a) cs with
    | None => None
    | Some c => if is_cv c then None else
        option_map (fun m => format (m_name m) (snd a)) (find (fun m => text_eqb (format (m_name m) (fst a)) low) (c_map c))
    end
  else None.
Fixpoint first_some {A B} (f : A -> option B) (l : list A) : option B :=
  match l with [] => None | a :: r => match f a with Some b => Some b | None => first_some f r end end.
(** de_alias, l.107-131 *)
Definition de_alias (name : text) (al : aliases) (cs : list component) : text :=
  let low := lower name in
  match lookup low al with
  | Some n => n
  | None => match first_some (alias_round cs low) al with Some n => n | None => low end
  end.

(** d[k] = v in a dictionary that keeps its order *)
Fixpoint set_key (d : list (text * text)) (k v : text) : list (text * text) :=
  match d with [] => [(k, v)] | (a, b) :: r => if text_eqb a k then (a, v) :: r else (a, b) :: set_key r k v end.
(** l.151-161: from the names on the board to the names in the patch *)
Definition params (names : list text) (al : aliases) (cs : list component) : list (text * text) :=
  fold_left (fun d k => set_key d (de_alias k al cs) k) names [].
(** verify_param_used, l.87-104.  The two dictionaries are run through one after the other (a name in both is looked at twice). *)
Fixpoint used_in (c : component) (ps : list (text * text)) (cs : list component) : result bool :=
  match ps with
  | [] => Fine false
  | p :: r => rbind (get_root_component (fst p) (snd p) cs) (fun root => if text_eqb root (c_name c) then Fine true else used_in c r cs)
  end.
Definition verify_param_used (c : component) (ps : list (text * text)) (cs : list component) : result bool :=
  if c_parent c then Fine true else used_in c ps cs.
(** components.pop(i) *)
Definition pop (i : nat) (cs : list component) : list component := firstn i cs ++ skipn (S i) cs.
(** l.168-173: i = n-1, ..., 0 *)
Fixpoint prune (n : nat) (ps : list (text * text)) (cs : list component) : result (list component) :=
  match n with
  | O => Fine cs
  | S i => match nth_error cs i with
           | None => Fine cs                                             (* does not happen *)
           | Some c => rbind (verify_param_used c ps cs) (fun b => prune i ps (if b then cs else pop i cs))
           end
  end.
Inductive place := Callback | Loop | Hook.
(** The entries of replacements['parameters'] and of callback_write_in or loop_write_in, l.185-210 *)
Record in_row := mkIn { i_enum : text; i_name : text; i_kind : text; i_place : place; i_get : text }.
Definition in_place (w : option text) : place :=
  match w with None => Callback | Some t => if text_eqb t (T "callback") then Callback else Loop end.
Definition in_param (cs : list component) (p : text * text) : result in_row :=
  rbind (get_root_component (fst p) (snd p) cs) (fun root =>
  match by_name root cs with None => Raise KeyError                      (* does not happen *) | Some c =>
  rbind (get_component_mapping (fst p) (snd p) c) (fun m =>
  match m_get m with None => Raise KeyError | Some g => Fine (mkIn (snd p) root (c_kind c) (in_place (m_where m)) g) end) end).
(** The entries of replacements['output_parameters'] and of callback_write_out, loop_write_out or hook_write_out, l.212-249 *)
Record out_row := mkOut { o_enum : text; o_name : text; o_comp : text; o_index : nat; o_place : place; o_set : text }.
Definition out_place (w : option text) : place :=
  match w with
  | None => Callback
  | Some t => if text_eqb t (T "callback") then Callback else if text_eqb t (T "loop") then Loop else if text_eqb t (T "hook") then Hook else Callback
  end.
Definition out_param (cs : list component) (x : nat * (text * text)) : result out_row :=
  let p := snd x in
  rbind (get_root_component (fst p) (snd p) cs) (fun root =>
  match by_name root cs with None => Raise KeyError | Some c =>
  rbind (get_component_mapping (fst p) (snd p) c) (fun m =>
  match m_set m with None => Raise KeyError | Some s => Fine (mkOut (snd p) (fst p) root (fst x) (out_place (m_where m)) s) end) end).
Record glue := mkGlue { g_components : list component; g_ins : list in_row; g_outs : list out_row }.
(** parse_parameters, l.134-253.  [ins], [outs]: the names of the parameters; the lists callback_write_in etc. are the rows of that place, in order. *)
Definition parse_parameters (ins outs : list text) (cs : list component) (al : aliases) : result glue :=
  let pin := params ins al cs in
  let pout := params outs al cs in
  rbind (each (fun p => verify_param_exists true (fst p) (snd p) cs) pin) (fun _ =>
  rbind (each (fun p => verify_param_exists false (fst p) (snd p) cs) pout) (fun _ =>
  rbind (prune (length cs) (pin ++ pout) cs) (fun cs' =>
  rbind (each (in_param cs') pin) (fun ri =>
  rbind (each (out_param cs') (combine (seq 0 (length pout)) pout)) (fun ro => Fine (mkGlue cs' ri ro)))))).

(** sendHook, HeavyDaisy.cpp:486-496, and DaisyHvParamOut::Process, l.82-87.  HV_NAME_PARAM_OUT_X is the hash of the parameter's name.
    [V]: the values; the result: output_data and the calls of the hooks (the parameter's name on the board and the value). *)
Section Send.
Variable V : Type.
Definition write_at (d : list V) (i : nat) (v : V) : list V := firstn i d ++ match skipn i d with [] => [] | _ :: r => v :: r end.
Fixpoint send_hook (rows : list out_row) (hash : Z) (v : V) (d : list V) (calls : list (text * V)) : list V * list (text * V) :=
  match rows with
  | [] => (d, calls)
  | r :: t => if hv_string_to_hash (o_enum r) =? hash
      then send_hook t hash v (write_at d (o_index r) v) (match o_place r with Hook => calls ++ [(o_name r, v)] | _ => calls end)
      else send_hook t hash v d calls
  end.
End Send.
Arguments write_at {V}. Arguments send_hook {V}.

(** The sample rate and the block size of the program, c2daisy.py:115-133; [None]: the board's own. *)
Definition samplerate (r : Z) : Z :=
  if 96000 <=? r then 96000 else if 48000 <=? r then 48000 else if 32000 <=? r then 32000 else if 16000 <=? r then 16000 else 8000.
Definition blocksize (b : option Z) : option Z := match b with Some b => Some (Z.max (Z.min 256 b) 1) | None => None end.
