(** Model of message patches: how the abstractions of /repo/hvcc/interpreters/pd2hv/libs/pd are built from
    control objects, and how the generated code runs them.

    A patch is transcribed object by object in the order of the .pd file (comments included, as [IText], so
    that the numbers of "#X connect" agree); [patch_conns] is the list of its "#X connect" lines.
    Abstractions used inside a patch are nested patches.  [flatten] removes the nesting, as
    HeavyGraph.reduce and get_ir_on_message do (HeavyGraph.py:605-643, 928-957); the order of the calls
    is the subject of FlowModel.

    A message is a list of elements, a symbol is its text (hashes keep the text); timestamps do not wrap.
    An object's reaction sends at most one message per outlet and reads its state before it sends, so that
    the calls may be put on a stack instead of being nested. *)
From Verif Require Export BinopModel UnopModel TimeModel HashModel ExprModel RandomModel.
From Coq Require Export String.
Open Scope list_scope.
Open Scope Z_scope.

Inductive elem := EB | EF (x : f32) | ES (s : list Z).
Definition msg := list elem.

(** Casts of a trigger (PdTriggerObject.py:43-49). *)
Inductive cast := CA | CB | CF.
(** Elements of a message box (ControlMessage.py:57-75). *)
Inductive tmpl := TE (e : elem) | TArg (n : nat).
(** Cases of a switchcase (HvSwitchcase.py:32-37). *)
Inductive label := LN (x : f32) | LS (s : list Z).

Inductive prim :=
| PPass                              (* inlet, outlet, send, receive, loadbang *)
| PSeq (cs : list cast)              (* trigger *)
| PBox (boxes : list (list tmpl))
| PVar (e : elem)
| PIf (k : bool)
| PBin (op : binop) (k : f32)        (* right inlet connected *)
| PBinK (op : binop) (k : f32)       (* right inlet not connected, HLangBinop.py *)
| PUn (op : unop)
| PSlice (i n : Z)
| PSwitch (cases : list label)
| PPack (vals : list elem)
| PDelay (samples : Z)
| PSystem
| PPrint
| PRandom (state : Z).

(** One line of a .pd file.  [IIn x], [IOut x]: an inlet or outlet at the x position [x]. *)
Inductive item := IText | IObj (p : prim) | IIn (x : Z) | IOut (x : Z) | ILoad | ISub (p : patch)
with patch := mkPatch (items : list item) (conns : list (nat * nat * nat * nat)).

(** The C library's functions, the bit pattern of a NaN (not determined by the model of floats), the
    sample rate. *)
Record env := mkEnv { e_lib : unop -> f32 -> f32; e_pow : f32 -> f32 -> f32; e_atan2 : f32 -> f32 -> f32;
                      e_nan : Z; e_sr : f64 }.
(** *(( hv_uint32_t * ) &f), the binary32 encoding of a float; [nan] that of a NaN. *)
Definition float_bits (nan : Z) (x : f32) : Z :=
  let sign (s : bool) := if s then 2147483648 else 0 in
  match x with
  | B754_zero s => sign s
  | B754_infinity s => sign s + 2139095040
  | B754_nan => nan
  | B754_finite s m e _ => sign s + (if Zpos m <? 8388608 then Zpos m else (e + 150) * 8388608 + (Zpos m - 8388608))
  end.

Section Patch.
Variable E : env.
Notation bits := (float_bits (e_nan E)).

(** ** Objects *)
(** msg_getHash, HvMessage.c:94-110 *)
Definition elem_hash (e : elem) : Z :=
  match e with EB => BANG_HASH | EF x => bits x | ES s => hv_string_to_hash s end.
(** HeavyObject.get_hash, HeavyObject.py:163-205 *)
Definition label_hash (l : label) : Z :=
  match l with LN x => bits x | LS s => match py_get_hash s with Some h => h | None => 0 end end.
Fixpoint find_label (h : Z) (l : list label) (k : nat) : nat :=
  match l with [] => k | c :: l' => if h =? label_hash c then k else find_label h l' (S k) end.
(** ControlSwitchcase.py:56-86 *)
Definition switch_outlet (cases : list label) (m : msg) : outcome nat :=
  match m with
  | [] => UB
  | e :: rest =>
    if elem_hash e =? hv_string_to_hash (T "symbol") then
      match rest with e' :: _ => Ok (find_label (elem_hash e') cases 0) | [] => UB end
    else Ok (find_label (elem_hash e) cases 0)
  end.
(** HvControlCast.c:19-42; [CA]: no cast, FlowModel *)
Definition cast_msg (c : cast) (m : msg) : option msg :=
  match c, m with
  | CA, _ => Some m
  | CB, _ => Some [EB]
  | CF, EF x :: _ => Some [EF x]
  | CF, _ => None
  end.
(** HLangSequence: the outlets from right to left. *)
Fixpoint seq_emits (cs : list cast) (i : nat) (m : msg) : list (nat * msg) :=
  match cs with
  | [] => []
  | c :: cs' => seq_emits cs' (S i) m ++ match cast_msg c m with Some m' => [(i, m')] | None => [] end
  end.
(** ControlMessage.py:43-88 *)
Fixpoint fill (l : list tmpl) (m : msg) : outcome msg :=
  match l with
  | [] => Ok []
  | t :: l' =>
    let! e := match t with TE e => Ok e | TArg n => match nth_error m n with Some e => Ok e | None => UB end end in
    let! r := fill l' m in Ok (e :: r)
  end.
Fixpoint box_emits (boxes : list (list tmpl)) (m : msg) : outcome (list (nat * msg)) :=
  match boxes with
  | [] => Ok []
  | b :: bs => let! n := fill b m in let! r := box_emits bs m in Ok ((O, n) :: r)
  end.
Definition float_at (m : msg) (i : nat) : option f32 := match nth_error m i with Some (EF x) => Some x | _ => None end.
Fixpoint overwrite (old new : msg) : msg :=
  match old, new with
  | _ :: o, EB :: n => match old with e :: _ => e :: overwrite o n | [] => [] end
  | _ :: o, e :: n => e :: overwrite o n
  | _, _ => old
  end.
Fixpoint put_elem (l : msg) (i : nat) (e : elem) : msg :=
  match l, i with [], _ => [] | _ :: l', O => e :: l' | x :: l', S j => x :: put_elem l' j e end.

(** What an object does with the message [m] at inlet [i]: its new state, the messages it sends.  Delays
    are handled in [step]. *)
Definition react (now : Z) (p : prim) (i : nat) (m : msg) : outcome (prim * list (nat * msg)) :=
  match p with
  | PPass => Ok (p, [(O, m)])
  | PSeq cs => Ok (p, seq_emits cs O m)
  | PBox boxes => let! e := box_emits boxes m in Ok (p, e)
  | PVar e =>                                   (* HvControlVar.c:36-82 *)
      match i, m with
      | O, EB :: _ => Ok (p, [(O, [e])])
      | O, e' :: _ => Ok (PVar e', [(O, m)])
      | 1%nat, EB :: _ => Ok (p, [])
      | 1%nat, e' :: _ => Ok (PVar e', [])
      | _, _ => Ok (p, [])
      end
  | PIf k =>                                    (* HvControlIf.c:24-43 *)
      match i with
      | O => Ok (p, [(if k then 1%nat else O, m)])
      | 1%nat => match float_at m 0 with Some x => Ok (PIf (negb (feqb x fzero)), []) | None => Ok (p, []) end
      | _ => Ok (p, [])
      end
  | PBin op k =>                                (* HvControlBinop.c:63-87 *)
      match i, float_at m 0 with
      | O, Some x =>
          let k1 := match float_at m 1 with Some y => y | None => k end in
          let! r := perform_op (e_pow E) (e_atan2 E) op x k1 in Ok (PBin op k1, [(O, [EF r])])
      | 1%nat, Some x => Ok (PBin op x, [])
      | _, _ => Ok (p, [])
      end
  | PBinK op k =>                               (* HvControlBinop.c:89-100 *)
      match float_at m 0 with
      | Some x => let! r := perform_op (e_pow E) (e_atan2 E) op x (match float_at m 1 with Some y => y | None => k end) in
                  Ok (p, [(O, [EF r])])
      | None => Ok (p, [])
      end
  | PUn op =>                                   (* HvControlUnop.c:19-55 *)
      match float_at m 0 with Some x => Ok (p, [(O, [EF (unop_value (e_lib E) op x)])]) | None => Ok (p, []) end
  | PSlice s n =>                               (* HvControlSlice.c:29-45, left inlet only *)
      match i with
      | O => if s <? zlen m then
               let r := skipn (Z.to_nat s) m in
               Ok (p, [(O, if 0 <? n then firstn (Z.to_nat n) r else r)])
             else Ok (p, [(1%nat, [EB])])
      | _ => UB
      end
  | PSwitch cases => let! k := switch_outlet cases m in Ok (p, [(k, m)])
  | PPack vals =>                               (* HvControlPack.c:40-70, floats and bangs *)
      match i, m with
      | O, _ => let v := overwrite vals m in Ok (PPack v, [(O, v)])
      | _, EF x :: _ => Ok (PPack (put_elem vals i (EF x)), [])
      | _, EB :: _ => Ok (p, [])
      | _, _ => UB
      end
  | PSystem =>                                  (* HvControlSystem.c:19-48, not the table queries *)
      match m with
      | ES s :: _ =>
          if list_eq_dec Z.eq_dec s (T "samplerate") then Ok (p, [(O, [EF (narrow (e_sr E))])])
          else if list_eq_dec Z.eq_dec s (T "currentTime") then Ok (p, [(O, [EF (of_int now)])])
          else UB
      | _ => Ok (p, [])
      end
  | PPrint => Ok (p, [])
  | PRandom s =>                                (* HvControlRandom.c:27-46 *)
      match i with
      | O => let s' := random_next s in Ok (PRandom s', [(O, [EF (random_value s')])])
      | 1%nat => match float_at m 0 with Some x => let! s' := to_u32 x in Ok (PRandom s', []) | None => Ok (p, []) end
      | _ => Ok (p, [])
      end
  | PDelay _ => UB
  end.

(** ** Flat patches *)
Definition flat_conn := (nat * nat * nat * nat)%type.     (* object, outlet, object, inlet *)
Record flat := mkFlat { f_nodes : list prim; f_conns : list flat_conn;
                        f_ins : list nat; f_outs : list nat;   (* the nodes of the inlets and outlets *)
                        f_loads : list nat }.
(** PdGraph.add_object, PdGraph.py:75-92: inlets and outlets are numbered from left to right; [l]: position
    and node. *)
Fixpoint insert_let (e : Z * nat) (l : list (Z * nat)) : list (Z * nat) :=
  match l with [] => [e] | x :: l' => if fst e <? fst x then e :: x :: l' else x :: insert_let e l' end.
Definition by_x (l : list (Z * nat)) : list nat := map snd (fold_left (fun acc e => insert_let e acc) l []).

(** A placed object: a node, or a nested patch. *)
Inductive placed := Node (n : nat) | Nested (ins outs : list nat) | Nothing.
Definition source (p : placed) (o : nat) : option (nat * nat) :=
  match p with
  | Node n => Some (n, o)
  | Nested _ outs => match nth_error outs o with Some n => Some (n, O) | None => None end
  | Nothing => None
  end.
Definition target (p : placed) (i : nat) : option (nat * nat) :=
  match p with
  | Node n => Some (n, i)
  | Nested ins _ => match nth_error ins i with Some n => Some (n, O) | None => None end
  | Nothing => None
  end.
Fixpoint join (ps : list placed) (cs : list flat_conn) : list flat_conn :=
  match cs with
  | [] => []
  | (a, o, b, i) :: cs' =>
    match source (nth a ps Nothing) o, target (nth b ps Nothing) i with
    | Some (n, o'), Some (m, i') => (n, o', m, i') :: join ps cs'
    | _, _ => join ps cs'
    end
  end.
(** The nodes are numbered from [base] on. *)
Fixpoint flatten (p : patch) (base : nat) {struct p} : flat :=
  match p with
  | mkPatch items conns =>
    let fix go (items : list item) (base : nat) : list placed * list prim * list flat_conn * list (Z * nat) * list (Z * nat) * list nat :=
      match items with
      | [] => ([], [], [], [], [], [])
      | it :: items' =>
        match it with
        | IText => let '(ps, ns, cs, li, lo, ld) := go items' base in (Nothing :: ps, ns, cs, li, lo, ld)
        | IObj q => let '(ps, ns, cs, li, lo, ld) := go items' (S base) in (Node base :: ps, q :: ns, cs, li, lo, ld)
        | IIn x => let '(ps, ns, cs, li, lo, ld) := go items' (S base) in (Node base :: ps, PPass :: ns, cs, (x, base) :: li, lo, ld)
        | IOut x => let '(ps, ns, cs, li, lo, ld) := go items' (S base) in (Node base :: ps, PPass :: ns, cs, li, (x, base) :: lo, ld)
        | ILoad => let '(ps, ns, cs, li, lo, ld) := go items' (S base) in (Node base :: ps, PPass :: ns, cs, li, lo, base :: ld)
        | ISub q =>
          let f := flatten q base in
          let '(ps, ns, cs, li, lo, ld) := go items' (base + List.length (f_nodes f))%nat in
          (Nested (f_ins f) (f_outs f) :: ps, f_nodes f ++ ns, f_conns f ++ cs, li, lo, f_loads f ++ ld)
        end
      end in
    let '(ps, ns, cs, li, lo, ld) := go items base in
    mkFlat ns (cs ++ join ps conns) (by_x li) (by_x lo) ld
  end.

(** ** Running *)
Definition task := (nat * nat * msg)%type.                 (* object, inlet, message *)
Record world := mkWorld {
  nodes : list prim;
  queue : list (Z * nat * msg);                            (* time, delay, message; in order of time *)
  sent : list (Z * nat * msg) }.                           (* what the outlets have sent: time, outlet, message *)
Fixpoint set_node (l : list prim) (n : nat) (p : prim) : list prim :=
  match l, n with [], _ => [] | _ :: l', O => p :: l' | x :: l', S k => x :: set_node l' k p end.
Fixpoint index_of (n : nat) (l : list nat) (k : nat) : option nat :=
  match l with [] => None | x :: l' => if Nat.eqb n x then Some k else index_of n l' (S k) end.
(** The connections of outlet [o] of node [n], in order. *)
Definition tasks_of (cs : list flat_conn) (n o : nat) (m : msg) : list task :=
  map (fun c => match c with (_, _, b, i) => (b, i, m) end)
      (filter (fun c => match c with (a, o', _, _) => Nat.eqb a n && Nat.eqb o' o end) cs).
Fixpoint enqueue (e : Z * nat * msg) (q : list (Z * nat * msg)) : list (Z * nat * msg) :=
  match q with [] => [e] | x :: q' => if fst (fst e) <? fst (fst x) then e :: x :: q' else x :: enqueue e q' end.
Definition is_word (w : string) (m : msg) : bool :=
  match m with ES s :: _ => if list_eq_dec Z.eq_dec s (T w) then true else false | _ => false end.
Definition of_node (n : nat) (e : Z * nat * msg) : bool := Nat.eqb (snd (fst e)) n.
Definition drop_node (n : nat) (q : list (Z * nat * msg)) := filter (fun e => negb (of_node n e)) q.
Definition pending (n : nat) (q : list (Z * nat * msg)) : nat := List.length (filter (of_node n) q).
Definition log (s out : list (Z * nat * msg)) := s ++ out.

(** One call of an onMessage function.  Delays: HvControlDelay.c:26-84 (no "flush"; 8 messages at most). *)
Definition step (fp : flat) (now : Z) (w : world) (t : task) : outcome (world * list task) :=
  let '(n, i, m) := t in
  match nth_error (nodes w) n with
  | None => UB
  | Some (PDelay d) =>
      match i with
      | O => if is_word "flush" m then UB
             else if is_word "clear" m then
               Ok (mkWorld (nodes w) (drop_node n (queue w)) (sent w), [])
             else assert! (Nat.ltb (pending n (queue w)) 8) in
               Ok (mkWorld (nodes w) (enqueue (now + d, n, m) (queue w)) (sent w), [])
      | _ => match float_at m 0 with
             | Some x => let! d' := delay_inlet (e_sr E) (Z.of_nat i) x in
                         Ok (mkWorld (set_node (nodes w) n (PDelay d')) (queue w) (sent w), [])
             | None => Ok (w, [])
             end
      end
  | Some p =>
      let! (p', es) := react now p i m in
      let s := match index_of n (f_outs fp) O with Some k => log (sent w) [(now, k, m)] | None => sent w end in
      Ok (mkWorld (set_node (nodes w) n p') (queue w) s,
          flat_map (fun e => tasks_of (f_conns fp) n (fst e) (snd e)) es)
  end.
(** All the calls a message causes; [None]: more than [fuel] calls. *)
Fixpoint exec (fp : flat) (now : Z) (fuel : nat) (w : world) (stack : list task) : option (outcome world) :=
  match stack with
  | [] => Some (Ok w)
  | t :: rest =>
    match fuel with
    | O => None
    | S f =>
      match step fp now w t with
      | Ok (w1, ts) => exec fp now f w1 (ts ++ rest)
      | AssertFail => Some AssertFail
      | UB => Some UB
      end
    end
  end.
(** [stack] is worked off without undefined behaviour or failed assertion. *)
Definition runs (fp : flat) (now : Z) (w : world) (stack : list task) (w' : world) : Prop :=
  exists fuel, exec fp now fuel w stack = Some (Ok w').
(** A message at inlet [i] of the patch. *)
Definition inlet_task (fp : flat) (i : nat) (m : msg) : list task :=
  match nth_error (f_ins fp) i with Some n => [(n, O, m)] | None => [] end.
(** Loading the patch at time 0: a bang for every loadbang. *)
Definition boot (fp : flat) : world := mkWorld (f_nodes fp) [] [].
Definition load_tasks (fp : flat) : list task := map (fun n => (n, O, [EB])) (f_loads fp).
(** The next delayed message. *)
Definition fire (fp : flat) (w : world) : option (Z * world * list task) :=
  match queue w with
  | [] => None
  | (ts, n, m) :: q => Some (ts, mkWorld (nodes w) q (sent w), tasks_of (f_conns fp) n 0 m)
  end.
(** What happens to a patch: a message arrives at an inlet, or the next delayed message is due. *)
Inductive event := In_ (now : Z) (inlet : nat) (m : msg) | Due.
Inductive plays (fp : flat) : world -> list event -> world -> Prop :=
| plays_nil w : plays fp w [] w
| plays_in w now i m w1 l w' :
    runs fp now w (inlet_task fp i m) w1 -> plays fp w1 l w' -> plays fp w (In_ now i m :: l) w'
| plays_due w ts wq tasks w1 l w' :
    fire fp w = Some (ts, wq, tasks) -> runs fp ts wq tasks w1 -> plays fp w1 l w' -> plays fp w (Due :: l) w'
| plays_idle w l w' : fire fp w = None -> plays fp w l w' -> plays fp w (Due :: l) w'.
(** The patch [p], loaded at time 0, sends [out] (time, outlet, message) in the course of [l]. *)
Definition sends (p : patch) (l : list event) (out : list (Z * nat * msg)) : Prop :=
  let fp := flatten p 0 in
  exists w0 w, runs fp 0 (boot fp) (load_tasks fp) w0 /\ plays fp w0 l w /\ sent w = out.
(** A failed assertion or undefined behaviour in the course of [l]. *)
Definition fails (p : patch) (l : list event) (r : outcome world) : Prop :=
  let fp := flatten p 0 in
  exists w0 w l1 i now m fuel,
    l = l1 ++ [In_ now i m] /\ runs fp 0 (boot fp) (load_tasks fp) w0 /\ plays fp w0 l1 w /\
    exec fp now fuel w (inlet_task fp i m) = Some r /\ match r with Ok _ => False | _ => True end.
End Patch.
