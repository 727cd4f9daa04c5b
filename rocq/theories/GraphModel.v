(** Ordering of the signal objects and assignment of their buffers, for a reduced patch with
    nested subgraphs.
    Source: hvcc/core/hv2ir/BufferPool.py, HeavyIrObject.py, HeavyGraph.py (Python).

    Objects are numbers.  Simplifications: the connection lists kept at both ends of a connection
    (HeavyLangObject.add_connection) are views of one list [conns], in list order; raising an
    exception is the result [None]; the control connections that group_control_receivers draws
    across graphs come from objects without inlets and are left out. *)
From Coq Require Export ZArith List Bool Arith Lia.
Export ListNotations.

(** hvcc/core/hv2ir/Connection.py:27-39; [c_sig]: type "~f>" or "~i>" (is_signal), else control *)
Record conn := { c_from : nat; c_out : nat; c_to : nat; c_in : nat; c_sig : bool }.
(** Types of inlets and outlets from heavy.ir.json: [None] control, [Some false] "~f>", [Some true] "~i>" *)
Definition lets := list (option bool).
(** IR objects (HeavyIrObject.py:55-75), inlet and outlet objects, subgraphs.
    [signal] is ir.signal of the object description.  [dac := Some ch]: the __add~f made by
    HLangDac.reduce (HLangDac.py:41-58) with preset buffers.  [adc := Some ch]: the __inlet made by
    HLangAdc.reduce (HLangAdc.py:46-62). *)
Inductive kind :=
| Leaf (signal : bool) (ins outs : lets) (dac : option nat)
| Inlet (adc : option nat)
| Outlet
| Graph (objs inlets outlets : list nat).
Record patch := { kind_of : nat -> kind; conns : list conn }.

(** HeavyLangObject.py:81-82: connections at an inlet, at an outlet *)
Definition at_inlet (g : patch) (o i : nat) : list conn :=
  filter (fun c => Nat.eqb c.(c_to) o && Nat.eqb c.(c_in) i) g.(conns).
Definition at_outlet (g : patch) (o i : nat) : list conn :=
  filter (fun c => Nat.eqb c.(c_from) o && Nat.eqb c.(c_out) i) g.(conns).
Definition num_inlets (g : patch) (o : nat) : nat :=
  match g.(kind_of) o with Leaf _ ins _ _ => length ins | Inlet _ => 0 | Outlet => 1 | Graph _ il _ => length il end.
Definition num_outlets (g : patch) (o : nat) : nat :=
  match g.(kind_of) o with Leaf _ _ outs _ => length outs | Inlet _ => 1 | Outlet => 0 | Graph _ _ ol => length ol end.

(** ** Ordering *)
(** HeavyLangObject.py:316-319, is_leaf *)
Definition is_leaf (g : patch) (o : nat) : bool :=
  forallb (fun i => match at_outlet g o i with [] => true | _ => false end) (seq 0 (num_outlets g o)).
Definition in_connections (g : patch) (o : nat) : list conn := flat_map (at_inlet g o) (seq 0 (num_inlets g o)).
(** HeavyIrObject.py:130-144, get_parent_order; [seen]: the objects with __is_ordered set.
    [None]: out of fuel (never, see the proofs).  The is_root case is the empty loop. *)
Fixpoint parent_order (fuel : nat) (g : patch) (o : nat) (seen : list nat) : option (list nat * list nat) :=
  match fuel with
  | O => None
  | S k =>
      if existsb (Nat.eqb o) seen then Some ([], seen)
      else
        let fix parents (cs : list conn) (acc : list nat) (seen : list nat) : option (list nat * list nat) :=
          match cs with
          | [] => Some (acc, seen)
          | c :: cs' =>
              match parent_order k g c.(c_from) seen with
              | Some (l, seen') => parents cs' (acc ++ l) seen'
              | None => None
              end
          end in
        match parents (in_connections g o) [] (o :: seen) with
        | Some (l, seen') => Some (l ++ [o], seen')
        | None => None
        end
  end.
Fixpoint order_leaves (fuel : nat) (g : patch) (l : list nat) (seen : list nat) : option (list nat) :=
  match l with
  | [] => Some []
  | o :: l' =>
      match parent_order fuel g o seen with
      | Some (r, seen') => match order_leaves fuel g l' seen' with Some r' => Some (r ++ r') | None => None end
      | None => None
      end
  end.
(** HeavyGraph.py:794-801, order_signal_objects before the final filter *)
Definition full_order (g : patch) (objs : list nat) : option (list nat) :=
  order_leaves (S (length objs)) g (filter (is_leaf g) objs) [].
(** HeavyIrObject.py:104-108 and HeavyGraph.py:788-792, does_process_signal ([depth]: nesting) *)
Fixpoint does_process (depth : nat) (g : patch) (o : nat) : bool :=
  match g.(kind_of) o, depth with
  | Leaf s _ _ _, _ => s
  | Graph objs il _, S k =>
      existsb (does_process k g) objs || existsb (fun i => match g.(kind_of) i with Inlet (Some _) => true | _ => false end) il
  | _, _ => false
  end.
(** HeavyGraph.py:794-804 *)
Definition signal_order (depth : nat) (g : patch) (objs : list nat) : option (list nat) :=
  match full_order g objs with Some l => Some (filter (does_process depth g) l) | None => None end.

(** The order in which assign_signal_buffers visits the objects, HeavyGraph.py:806-857: entering a
    graph, then its ordered objects (recursively for subgraphs), then leaving it.  The ordering of a
    subgraph, computed when it is entered, does not depend on buffers. *)
Inductive event := Enter (gr : nat) | Proc (o : nat) | Exit (gr : nat).
Fixpoint concat_opt {A} (l : list (option (list A))) : option (list A) :=
  match l with
  | [] => Some []
  | None :: _ => None
  | Some x :: l' => match concat_opt l' with Some r => Some (x ++ r) | None => None end
  end.
Fixpoint events (depth : nat) (g : patch) (gr : nat) : option (list event) :=
  match depth, g.(kind_of) gr with
  | S k, Graph objs _ _ =>
      match signal_order k g objs with
      | Some l =>
          match concat_opt (map (fun o => match g.(kind_of) o with Graph _ _ _ => events k g o | _ => Some [Proc o] end) l) with
          | Some r => Some (Enter gr :: r ++ [Exit gr])
          | None => None
          end
      | None => None
      end
  | _, _ => None
  end.

(** ** Buffers *)
(** ("zero",0), ("input",i), ("output",i), ("~f>",n) / ("~i>",n) *)
Inductive buf := BZero | BIn (i : nat) | BOut (i : nat) | BTmp (t : bool) (n : nat).
Definition buf_eqb (a b : buf) : bool :=
  match a, b with
  | BZero, BZero => true
  | BIn i, BIn j => Nat.eqb i j
  | BOut i, BOut j => Nat.eqb i j
  | BTmp t n, BTmp u m => Bool.eqb t u && Nat.eqb n m
  | _, _ => false
  end.
(** BufferPool.py:25-32: for one type, retain count -> list of buffers, in insertion order *)
Definition pool := list (Z * list nat).
Definition pools := bool -> pool.
Fixpoint bucket (k : Z) (p : pool) : list nat :=
  match p with [] => [] | (k', l) :: p' => if Z.eqb k k' then l else bucket k p' end.
Fixpoint upd (k : Z) (f : list nat -> list nat) (p : pool) : pool :=
  match p with [] => [(k, f [])] | (k', l) :: p' => if Z.eqb k k' then (k', f l) :: p' else (k', l) :: upd k f p' end.
Fixpoint remove1 (b : nat) (l : list nat) : list nat :=
  match l with [] => [] | x :: l' => if Nat.eqb x b then l' else x :: remove1 b l' end.
(** BufferPool.py:34-43, num_buffers *)
Definition num_buffers (p : pool) : nat := length (flat_map snd p).
Definition set_pool (P : pools) (t : bool) (p : pool) : pools := fun u => if Bool.eqb u t then p else P u.
(** BufferPool.py:45-61, get_buffer *)
Definition get_buffer (P : pools) (t : bool) (count : Z) (exclude : list buf) : nat * pools :=
  let p := P t in
  match find (fun b => negb (existsb (buf_eqb (BTmp t b)) exclude)) (rev (bucket 0 p)) with
  | Some b => (b, set_pool P t (upd count (fun l => l ++ [b]) (upd 0 (remove1 b) p)))
  | None => let b := num_buffers p in (b, set_pool P t (upd count (fun l => l ++ [b]) p))
  end.
(** BufferPool.py:63-93: retain_buffer (count), release_buffer (-count).  An unknown kind of buffer
    or one that is not in the pool raises. *)
Fixpoint find_bucket (b : nat) (p : pool) : option Z :=
  match p with [] => None | (k, l) :: p' => if existsb (Nat.eqb b) l then Some k else find_bucket b p' end.
Definition retain (P : pools) (b : buf) (count : Z) : option pools :=
  match b with
  | BZero | BIn _ => Some P
  | BOut _ => None
  | BTmp t n =>
      match find_bucket n (P t) with
      | Some k => Some (set_pool P t (upd (k + count) (fun l => l ++ [n]) (upd k (remove1 n) (P t))))
      | None => None
      end
  end.
Definition release (P : pools) (b : buf) : option pools := retain P b (-1).

(** inlet_buffers, outlet_buffers of every object, and the pool *)
Record bstate := { inb : nat -> nat -> buf; outb : nat -> nat -> buf; pl : pools }.
Definition upd2 (f : nat -> nat -> buf) (o i : nat) (b : buf) : nat -> nat -> buf :=
  fun o' i' => if Nat.eqb o' o && Nat.eqb i' i then b else f o' i'.
(** HeavyIrObject.py:69-71 and the presets of HLangDac.py:49-50, HLangAdc.py:56 *)
Definition init_state (g : patch) : bstate :=
  {| inb := fun o i => match g.(kind_of) o with Leaf _ _ _ (Some ch) => if Nat.eqb i 1 then BOut ch else BZero | _ => BZero end;
     outb := fun o i => match g.(kind_of) o with
                        | Leaf _ _ _ (Some ch) => if Nat.eqb i 0 then BOut ch else BZero
                        | Inlet (Some ch) => if Nat.eqb i 0 then BIn ch else BZero
                        | _ => BZero end;
     pl := fun _ => [] |}.
Definition signals (l : list conn) : list conn := filter c_sig l.

(** HeavyIrObject.py:146-165: inlets *)
Fixpoint assign_inlets (g : patch) (o : nat) (il : list nat) (s : bstate) : option bstate :=
  match il with
  | [] => Some s
  | i :: il' =>
      match signals (at_inlet g o i) with
      | [] => assign_inlets g o il' s
      | [c] =>
          let b := s.(outb) c.(c_from) c.(c_out) in
          match release s.(pl) b with
          | Some P => assign_inlets g o il' {| inb := upd2 s.(inb) o c.(c_in) b; outb := s.(outb); pl := P |}
          | None => None
          end
      | _ => None
      end
  end.
(** HeavyIrObject.py:167-189: outlets *)
Fixpoint assign_outlets (g : patch) (o : nat) (outs : list (nat * option bool)) (exclude : list buf) (s : bstate) : bstate :=
  match outs with
  | [] => s
  | (i, ty) :: outs' =>
      match ty, s.(outb) o i with
      | Some t, BZero =>
          let count := length (at_outlet g o i) in
          let (b, P) := get_buffer s.(pl) t (Z.of_nat count) exclude in
          assign_outlets g o outs' (if Nat.eqb count 0 then BTmp t b :: exclude else exclude)
            {| inb := s.(inb); outb := upd2 s.(outb) o i (BTmp t b); pl := P |}
      | _, _ => assign_outlets g o outs' exclude s
      end
  end.
Definition number {A} (l : list A) : list (nat * A) := combine (seq 0 (length l)) l.
Definition assign_leaf (g : patch) (o : nat) (s : bstate) : option bstate :=
  match g.(kind_of) o with
  | Leaf _ ins outs _ =>
      match assign_inlets g o (seq 0 (length ins)) s with
      | Some s' => Some (assign_outlets g o (number outs) [] s')
      | None => None
      end
  | _ => Some s
  end.
(** HeavyGraph.py:816-836: inlets of a graph *)
Fixpoint enter_graph (g : patch) (gr : nat) (il : list (nat * nat)) (s : bstate) : option bstate :=
  match il with
  | [] => Some s
  | (i, inlet) :: il' =>
      match signals (at_inlet g gr i) with
      | [] => enter_graph g gr il' s
      | [c] =>
          let b := s.(outb) c.(c_from) c.(c_out) in
          match retain s.(pl) b (Z.of_nat (length (signals (at_outlet g inlet 0))) - 1) with
          | Some P => enter_graph g gr il' {| inb := s.(inb); outb := upd2 s.(outb) inlet 0 b; pl := P |}
          | None => None
          end
      | _ => None
      end
  end.
(** HeavyGraph.py:842-857: outlets of a graph *)
Fixpoint exit_graph (g : patch) (gr : nat) (ol : list (nat * nat)) (s : bstate) : option bstate :=
  match ol with
  | [] => Some s
  | (i, outlet) :: ol' =>
      match signals (at_inlet g outlet 0) with
      | [] => exit_graph g gr ol' s
      | [c] =>
          let b := s.(outb) c.(c_from) c.(c_out) in
          match retain s.(pl) b (Z.of_nat (length (at_outlet g gr i)) - 1) with
          | Some P => exit_graph g gr ol' {| inb := s.(inb); outb := upd2 s.(outb) gr i b; pl := P |}
          | None => None
          end
      | _ => None
      end
  end.
Definition assign_event (g : patch) (e : event) (s : bstate) : option bstate :=
  match e with
  | Enter gr => match g.(kind_of) gr with Graph _ il _ => enter_graph g gr (number il) s | _ => None end
  | Proc o => assign_leaf g o s
  | Exit gr => match g.(kind_of) gr with Graph _ _ ol => exit_graph g gr (number ol) s | _ => None end
  end.
Fixpoint assign (g : patch) (es : list event) (s : bstate) : option bstate :=
  match es with
  | [] => Some s
  | e :: es' => match assign_event g e s with Some s' => assign g es' s' | None => None end
  end.

(** ** The generated process list: HeavyIrObject.py:245-262, HeavyGraph.py:975-976.
    Only lets that require a signal appear. *)
Record instr := { i_obj : nat; i_in : list buf; i_out : list (nat * buf) }.
Definition sig_lets (l : lets) : list nat := map fst (filter (fun p => match snd p with Some _ => true | None => false end) (number l)).
Definition instr_of (g : patch) (s : bstate) (o : nat) : instr :=
  match g.(kind_of) o with
  | Leaf _ ins outs _ => {| i_obj := o; i_in := map (s.(inb) o) (sig_lets ins); i_out := map (fun j => (j, s.(outb) o j)) (sig_lets outs) |}
  | _ => {| i_obj := o; i_in := []; i_out := [] |}
  end.
Definition procs (es : list event) : list nat := flat_map (fun e => match e with Proc o => [o] | _ => [] end) es.
Definition compile (depth : nat) (g : patch) (root : nat) : option (list instr * pools) :=
  match events depth g root with
  | Some es => match assign g es (init_state g) with Some s => Some (map (instr_of g s) (procs es), s.(pl)) | None => None end
  | None => None
  end.

(** Executing the process list for one block.  [f o inputs j]: what outlet j of object o produces
    from the blocks at its signal inlets (whatever state the object has).  Kernels take their inputs
    by value before they store (Heavy_NAME.cpp process, VIf/VOf macros). *)
Section Exec.
Context {A : Type} (f : nat -> list A -> nat -> A).
Definition mem := buf -> A.
Definition store (m : mem) (b : buf) (v : A) : mem := fun b' => if buf_eqb b' b then v else m b'.
Definition exec_instr (i : instr) (m : mem) : mem :=
  let inputs := map m i.(i_in) in
  fold_left (fun m' p => store m' (snd p) (f i.(i_obj) inputs (fst p))) i.(i_out) m.
(** The blocks every object saw, and the final memory. *)
Fixpoint exec (is : list instr) (m : mem) : list (nat * list A) * mem :=
  match is with
  | [] => ([], m)
  | i :: is' => let (tr, m') := exec is' (exec_instr i m) in ((i.(i_obj), map m i.(i_in)) :: tr, m')
  end.
End Exec.
