(** Parameters of a patch: the arguments of [r name @hv_param min max default type] (PdReceiveObject.py, PdSendObject.py, PdRaw.py), the
    receivers of one name (HeavyGraph.py), getParameterInfo (templates/Heavy_NAME.cpp), the names in the generated code (compiler.py),
    and the parameters of a DPF plugin (c2dpf/templates/HeavyDPF.cpp).  Python's float() of a text is the parameter [fl]; texts are lists
    of ASCII codes. *)
From Verif Require Export ExprModel Float64 HashModel ArgsModel PipeModel.
From Coq Require Import String List.
Import ListNotations.
Local Open Scope list_scope.
Open Scope Z_scope.
Notation text := (list Z).

Inductive ext := Param | Event.
(** Dictionaries of attributes: "min", "max", "default", "type" (@hv_param only), "raw" (@raw only). *)
Record attrs := mkAttrs { a_min : f64; a_max : f64; a_default : f64; a_type : option text; a_raw : option text }.

Section Args.
Variable fl : text -> option f64.

(** PdReceiveObject.py:64-76 (PdSendObject.py:52-64 is the same): the first argument that is missing or no number ends the reading. *)
Definition hv_param_attrs (args : list text) : attrs :=
  let a0 := mkAttrs (d_of_int 0) (d_of_int 1) (ddiv (d_of_int 1) (d_of_int 2)) (Some (T "float")) None in
  match nth_error args 2 with None => a0 | Some s => match fl s with None => a0 | Some lo =>
  let a1 := mkAttrs lo (a_max a0) (a_default a0) (a_type a0) None in
  match nth_error args 3 with None => a1 | Some s => match fl s with None => a1 | Some hi =>
  let a2 := mkAttrs lo hi (a_default a0) (a_type a0) None in
  match nth_error args 4 with None => a2 | Some s => match fl s with None => a2 | Some d =>
  mkAttrs lo hi d (match nth_error args 5 with Some t => Some t | None => a_type a0 end) None
  end end end end end end.

(** str.replace('owl', 'raw'), PdRaw.py:24-29 *)
Fixpoint replace_owl (s : text) : text :=
  match s with
  | 111 :: 119 :: 108 :: r => 114 :: 97 :: 119 :: replace_owl r
  | c :: r => c :: replace_owl r
  | [] => []
  end.
(** list.index, [None] if there is none *)
Fixpoint index_of (a : text) (l : list text) : option nat :=
  match l with [] => None | b :: r => if text_eqb a b then Some O else option_map S (index_of a r) end.
Definition raw_words : list text := [T "@raw"; T "@raw_min"; T "@raw_max"; T "@raw_default"; T "@raw_param"].
Record raw := mkRaw { w_min : f64; w_max : f64; w_default : option f64; w_raw : option text }.
(** PdRaw.py:45-71, one round of the loop; [None]: an exception. *)
Definition raw_round (args : list text) (w : text) (r : option raw) : option raw :=
  match r with None => None | Some r =>
  match index_of w args with None => Some r | Some i =>                                                   (* l.46-49 *)
    let val k := match nth_error args (i + k)%nat with Some s => fl s | None => None end in
    if text_eqb w (T "@raw") then                                                                         (* l.51-63 *)
      match nth_error args (i + 1)%nat with None => None | Some name =>
      match val 2%nat with None => Some (mkRaw (w_min r) (w_max r) (w_default r) (Some name)) | Some lo =>
      match val 3%nat with None => Some (mkRaw lo (w_max r) (w_default r) (Some name)) | Some hi =>
      match val 4%nat with None => Some (mkRaw lo hi (w_default r) (Some name)) | Some d =>
      Some (mkRaw lo hi (Some d) (Some name)) end end end end
    else if text_eqb w (T "@raw_param") then
      match nth_error args (i + 1)%nat with None => None | Some name => Some (mkRaw (w_min r) (w_max r) (w_default r) (Some name)) end
    else match val 1%nat with None => None | Some v =>                                                    (* l.64-71 *)
      Some (if text_eqb w (T "@raw_min") then mkRaw v (w_max r) (w_default r) (w_raw r)
            else if text_eqb w (T "@raw_max") then mkRaw (w_min r) v (w_default r) (w_raw r)
            else mkRaw (w_min r) (w_max r) (Some v) (w_raw r)) end
  end end.
(** parse_pd_raw_args, PdRaw.py:32-77. [order]: the order in which Python runs through its set of words. *)
Definition raw_attrs (order : list text) (args : list text) : option (f64 * f64 * f64 * option text) :=
  let args := map replace_owl args in
  match fold_left (fun r w => raw_round args w r) order (Some (mkRaw (d_of_int 0) (d_of_int 1) None None)) with
  | None => None
  | Some r => Some (w_min r, w_max r, match w_default r with Some d => d | None => ddiv (Bminus mode_NE (w_max r) (w_min r)) (d_of_int 2) end, w_raw r)
  end.

Record box := mkBox { b_name : text; b_ext : option ext; b_attrs : option attrs; b_errors : nat }.
(** PdReceiveObject.__init__, l.24-102, for "r" and "receive" (PdSendObject.__init__ for "s" and "send" is the same); priorities are left out.
    [b_errors]: the number of errors reported. *)
Definition receive_box (order : list text) (args : list text) : box :=
  let name := match args with n :: _ => n | [] => [] end in
  let e0 := match nth_error args 1 with
            | Some s => if text_eqb s (T "@hv_param") then Some Param else if text_eqb s (T "@hv_event") then Some Event else None
            | None => None end in
  let b := match e0 with
    | Some Param =>
        let a := hv_param_attrs args in
        let low := negb (Bleb (a_min a) (a_default a)) in
        let high := negb (Bleb (a_default a) (a_max a)) in
        mkBox name (if low || high then None else Some Param) (Some a) ((if low then 1 else 0) + (if high then 1 else 0))
    | _ => mkBox name e0 None 0
    end in
  if existsb (text_eqb (T "@raw")) args || existsb (text_eqb (T "@owl")) args then
    match raw_attrs order args with
    | Some (lo, hi, d, w) => mkBox name (Some Param) (Some (mkAttrs lo hi d (match b_attrs b with Some a => a_type a | None => None end) w)) (b_errors b)
    | None => mkBox name (b_ext b) (b_attrs b) (S (b_errors b))
    end
  else b.
End Args.

(** ** The receivers of a patch *)
Definition opt_text_eqb (a b : option text) : bool :=
  match a, b with Some x, Some y => text_eqb x y | None, None => true | _, _ => false end.
(** == of dictionaries *)
Definition attrs_eqb (a b : attrs) : bool :=
  Beqb (a_min a) (a_min b) && Beqb (a_max a) (a_max b) && Beqb (a_default a) (a_default b) && opt_text_eqb (a_type a) (a_type b) && opt_text_eqb (a_raw a) (a_raw b).
(** The keys of a dictionary, in the order of their first use. *)
Fixpoint first_uses (l : list text) : list text :=
  match l with [] => [] | a :: r => a :: filter (fun b => negb (text_eqb a b)) (first_uses r) end.
(** re.search(r"\W", name) finds nothing (HIrReceive.py:35-39) *)
Definition word_char (c : Z) : bool := (48 <=? c) && (c <=? 57) || (65 <=? c) && (c <=? 90) || (c =? 95) || (97 <=? c) && (c <=? 122).
Record receiver := mkReceiver { v_name : text; v_ext : option ext; v_attrs : option attrs }.
Definition is_ext (e : ext) (b : box) : bool := match b_ext b, e with Some Param, Param => true | Some Event, Event => true | _, _ => false end.
(** HeavyGraph.group_control_receivers, HeavyGraph.py:742-786, for the boxes of one name; [pick]: which of two conflicting kinds Python's
    set gives first.  Second component: the number of errors. *)
Definition group_one (pick : ext) (boxes : list box) (name : text) : receiver * nat :=
  let rs := filter (fun b => text_eqb name (b_name b)) boxes in
  let p := existsb (is_ext Param) rs in
  let e := existsb (is_ext Event) rs in
  let x := if p then if e then Some pick else Some Param else if e then Some Event else None in
  let l := flat_map (fun b => match b_attrs b with Some a => [a] | None => [] end) rs in
  let same := match l with [] => true | a :: _ => forallb (attrs_eqb a) l end in
  (mkReceiver name x (match l with a :: _ => Some a | [] => None end),
   ((if p && e then 1 else 0) + (if same then 0 else 1) + (if forallb word_char name then 0 else match x with Some _ => 1 | None => 0 end))%nat).
Definition group (pick : ext) (boxes : list box) : list receiver * nat :=
  let l := map (group_one pick boxes) (first_uses (map b_name boxes)) in (map fst l, fold_right (fun x n => (snd x + n)%nat) O l).
(** The key of a receiver: re.match(r"\d", k), HeavyGraph.py:967 *)
Definition escape (name : text) : text := match name with c :: _ => if (48 <=? c) && (c <=? 57) then 95 :: name else name | [] => [] end.
(** d[k] = v in a dictionary that keeps its order *)
Fixpoint dict_set {V} (k : text) (v : V) (d : list (text * V)) : list (text * V) :=
  match d with [] => [(k, v)] | (k', v') :: r => if text_eqb k k' then (k, v) :: r else (k', v') :: dict_set k v r end.
(** get_ir_receiver_dict, HeavyGraph.py:962-973 *)
Definition receiver_dict (rs : list receiver) : list (text * receiver) := fold_left (fun d r => dict_set (escape (v_name r)) r d) rs [].
(** Python's order of texts *)
Fixpoint text_leb (a b : text) : bool :=
  match a, b with [], _ => true | _ :: _, [] => false | x :: a', y :: b' => (x <? y) || ((x =? y) && text_leb a' b') end.
Fixpoint insert {V} (x : text * V) (l : list (text * V)) : list (text * V) :=
  match l with [] => [x] | y :: r => if text_leb (fst x) (fst y) then x :: y :: r else y :: insert x r end.
Definition sort_keys {V} (l : list (text * V)) : list (text * V) := fold_right insert [] l.
(** ir2c.py:290 and filter_extern, ir2c.py:130-134 *)
Definition externs (rs : list receiver) : list (text * receiver) :=
  filter (fun x => match v_ext (snd x) with Some _ => true | None => false end) (sort_keys (receiver_dict rs)).
(** HvParameterInfo; the numbers as they are printed into the source. *)
Record info := mkInfo { i_name : text; i_hash : option Z; i_kind : ext; i_min : f64; i_max : f64; i_default : f64 }.
Definition invalid_info : info := mkInfo (T "invalid parameter index") (Some 0) Param (d_of_int 0) (d_of_int 0) (d_of_int 0).
(** Heavy_NAME.cpp:109-142; [None] in the first component: [info] is null.  A parameter without attributes does not render. *)
Definition get_parameter_info (rs : list receiver) (index : Z) : info * Z :=
  let l := externs rs in
  (match (if 0 <=? index then nth_error l (Z.to_nat index) else None) with
   | Some (_, v) =>
     match v_ext v, v_attrs v with
     | Some Param, Some a => mkInfo (v_name v) (py_get_hash (v_name v)) Param (a_min a) (a_max a) (a_default a)
     | _, _ => mkInfo (v_name v) (py_get_hash (v_name v)) Event (d_of_int 0) (d_of_int 0) (d_of_int 0)
     end
   | None => invalid_info
   end, zlen l).
(** str.upper *)
Definition upper (s : text) : text := map (fun c => if (97 <=? c) && (c <=? 122) then c - 32 else c) s.
(** check_extern_name_conflicts, compiler.py:59-72: the number of errors *)
Fixpoint name_conflicts (keys : list text) : nat :=
  match keys with [] => O | k :: r => (length (filter (fun u => text_eqb (upper k) (upper u)) r) + name_conflicts r)%nat end.
(** in_parameter_list, compiler.py:136-138 *)
Definition in_parameters (rs : list receiver) : list (text * receiver) :=
  sort_keys (filter (fun x => match v_ext (snd x) with Some Param => true | _ => false end) (receiver_dict rs)).
(** HeavyDPF.hpp:19-25: the enumerators of the plugin, for the displays of its input and output parameters *)
Definition dpf_enumerators (ins outs : list text) : list text := map (fun d => T "param" ++ d) (ins ++ outs).

(** ** The parameters of a DPF plugin *)
Record plugin := mkPlugin { g_values : list f32; g_queue : pipe }.
Section Plugin.
Variable hashes : list Z.                     (* of the input parameters *)
Variable out_hashes : list Z.                 (* of the output parameters *)
Variable defaults : list f32.                 (* of all of them *)
Variable queue_kb : Z.                        (* compiler.py:183-187, [input_queue_kb] *)
(** the record of a float for a receiver: ReceiverMessagePair with a message of one element, see HostModel.v; 32 bytes *)
Variable record : Z -> f32 -> list Z.

Fixpoint set_value (i : nat) (v : f32) (l : list f32) : list f32 :=
  match l, i with [], _ => [] | _ :: r, O => v :: r | x :: r, S j => x :: set_value j v r end.
(** sendFloatToReceiver without other callers (HeavyContext.cpp:75-80, 114-137); a full queue refuses the record (hv_assert, switched off in
    release builds). *)
Definition send_float (s : pipe) (h : Z) (v : f32) : outcome pipe := let r := record h v in run s (Send r :: repeat Prod (length r + 8)).
(** setParameterValue, HeavyDPF.cpp:137-155 *)
Definition set_parameter (p : plugin) (i : nat) (v : f32) : outcome plugin :=
  match nth_error hashes i with
  | Some h => let! q := send_float (g_queue p) h v in Ok (mkPlugin (set_value i v (g_values p)) q)
  | None => Ok p
  end.
(** the loops of l.98-100 and l.235-237 from [i] on, [n] rounds *)
Fixpoint send_all_from (i n : nat) (p : plugin) : outcome plugin :=
  match n with O => Ok p | S n' => let! p' := set_parameter p i (nth i (g_values p) fzero) in send_all_from (S i) n' p' end.
(** A new context (its memory: [junk]) that is told the values: the end of the constructor and sampleRateChanged, l.83-101 and l.223-239. *)
Definition new_context (junk : mem) (values : list f32) : outcome plugin :=
  let! q := hLp_init junk (queue_kb * 1024) in
  let p := mkPlugin values q in
  match hashes with [] => Ok p | _ => send_all_from 0 (length hashes + length out_hashes) p end.
(** setOutputParameter, l.157-168: the first float of a message of a send with the hash [h] *)
Fixpoint index_hash (h : Z) (l : list Z) : option nat := match l with [] => None | x :: r => if x =? h then Some O else option_map S (index_hash h r) end.
Definition set_output (p : plugin) (h : Z) (v : f32) : plugin :=
  match index_hash h out_hashes with Some j => mkPlugin (set_value (length hashes + j) v (g_values p)) (g_queue p) | None => p end.
(** What happens to a plugin: the host sets a parameter; the patch sends a float; the reader of the queue does [k] accesses; the sample rate
    changes. *)
Inductive happening := SetParam (i : nat) (v : f32) | Sent (h : Z) (v : f32) | Reads (k : nat) | NewRate (junk : mem).
Definition happen (p : plugin) (e : happening) : outcome plugin :=
  match e with
  | SetParam i v => set_parameter p i v
  | Sent h v => Ok (set_output p h v)
  | Reads k => let! q := run (g_queue p) (repeat Cons k) in Ok (mkPlugin (g_values p) q)
  | NewRate junk => new_context junk (g_values p)
  end.
Fixpoint happen_all (p : plugin) (l : list happening) : outcome plugin :=
  match l with [] => Ok p | e :: r => let! p' := happen p e in happen_all p' r end.
(** The constructor, l.83-101, and what follows. *)
Definition plugin_run (junk : mem) (l : list happening) : outcome plugin := let! p := new_context junk defaults in happen_all p l.
(** getParameterValue, l.128-135 *)
Definition get_parameter (p : plugin) (i : nat) : option f32 := nth_error (g_values p) i.
End Plugin.
(** compiler.py:183-187: int() truncates *)
Definition input_queue_kb (params events midi : Z) : Z := Z.max 2 ((4 * params + events + 4 * midi) / 4).
