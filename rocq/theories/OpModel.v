(** Model of how binary signal operators and their constants become objects of the IR:
    - PdBinopObject.validate_configuration and convert_ctrl_to_sig_connections_at_inlet,
      /repo/hvcc/interpreters/pd2hv/PdBinopObject.py:71-138;
    - HLangBinop.reduce, /repo/hvcc/core/hv2ir/HLangBinop.py:72-224, HLangVar.reduce, HLangVar.py:35-70,
      and the loop of HeavyGraph.reduce that applies them, HeavyGraph.py:605-643.

    Patches are those of GraphModel, with what each object is beside them.  Simplifications: float signals
    only (no "~i>"); one connection list (in the code the order in which an inlet lists its connections
    changes when one of them is replaced: what is proved does not depend on that order); an exception or
    add_error is [None]; objects other than operators and [var] are taken to be IR objects already
    ([IOther]) and reduce to themselves; the operators are those with a "~" in Pd (+ - * / max min pow),
    which all have a "~f" version. *)
From Verif Require Export RewriteModel.

Inductive bop := OAdd | OSub | OMul | ODiv | ONamed (n : nat).
Section Ops.
(** The constants of a patch; the comparisons of HLangBinop.py:102-105, 131, 135; and Python's 0.0. *)
Context {K : Type} (kzero : K) (is_zero is_one is_minus_one : K -> bool).

(** IR types: __add~f ... , __neg~f, __var_k~f, __var~f, __varread~f of a __var~f, a control operator, others. *)
Inductive irty := IBin (b : bop) | INeg | IConst (k : K) | IVar (k : K) | IRead (y : nat) | ICtl | IOther.
(** [LBin b args]: operator with its argument in Pd, if any; [LVar k]: HeavyLang's var. *)
Inductive lobj := LBin (b : bop) (args : option K) | LVar (k : K) | LIr (t : irty).
Record lang := mkLang { lp : patch; lt : nat -> lobj; ln : nat }.
(** PdBinopObject.py:97-104 *)
Definition k_of (args : option K) : K := match args with Some k => k | None => kzero end.

(** _get_connection_format, HeavyLangObject.py:282-299, for one let: "_", "f", "c", "m". *)
Inductive fmt := FNone | FSig | FCtl | FMixed.
Definition fmt_of (cs : list conn) : fmt :=
  match existsb c_sig cs, existsb (fun c => negb c.(c_sig)) cs with
  | false, false => FNone
  | true, false => FSig
  | false, true => FCtl
  | true, true => FMixed
  end.

(** The lets of the new objects, heavy.ir.json. *)
Definition bin_kind : kind := Leaf true [Some false; Some false] [Some false] None.
Definition kind_for (t : irty) : kind :=
  match t with
  | IBin _ => bin_kind
  | INeg => Leaf true [Some false] [Some false] None
  | IConst _ | IRead _ => Leaf true [] [Some false] None
  | IVar _ => Leaf false [None] [Some false] None
  | ICtl => Leaf false [None; None] [None] None
  | IOther => Outlet
  end.
(** add_object and remove_object (HeavyGraph.py:170-, 334-351): object [o] of graph [G] is replaced by the
    objects [new], which get the next numbers; [cs]: the connections afterwards. *)
Definition replace_object (G o : nat) (new : list irty) (cs : list conn) (l : lang) : lang :=
  let n := ln l in
  let n' := n + length new in
  mkLang {| kind_of := fun x =>
              if between n n' x then kind_for (nth (x - n) new IOther)
              else if Nat.eqb x o then Outlet
              else if Nat.eqb x G then match (lp l).(kind_of) G with
                                       | Graph objs il ol => Graph (filter (fun y => negb (Nat.eqb y o)) objs ++ seq n (length new)) il ol
                                       | k => k end
              else (lp l).(kind_of) x;
            conns := cs |}
         (fun x => if between n n' x then LIr (nth (x - n) new IOther) else if Nat.eqb x o then LIr IOther else lt l x)
         n'.
(** c.copy(to_object, inlet_index) for the connections into [o], c.copy(from_object) for those out of it. *)
Definition mv (o : nat) (dst : nat -> nat * nat) (src : nat) (c : conn) : conn :=
  let c1 := if Nat.eqb c.(c_to) o then retarget c (dst c.(c_in)) else c in
  if Nat.eqb c.(c_from) o then refrom c1 src else c1.
Definition touches (o : nat) (c : conn) : bool := Nat.eqb c.(c_from) o || Nat.eqb c.(c_to) o.
Definition untouched (o : nat) (l : lang) : list conn := filter (fun c => negb (touches o c)) (lp l).(conns).

Definition remove (G o : nat) (l : lang) : lang := replace_object G o [] (untouched o l) l.
(** HLangBinop.py:77-82, 84-87: get_connection_move_list to the single object *)
Definition becomes (G o : nat) (t : irty) (l : lang) : lang :=
  let x := ln l in replace_object G o [t] (map (mv o (fun i => (x, i)) x) (lp l).(conns)) l.
(** l.89-101, "fc": the right inlet goes to a __var~f, which is read by a __varread~f *)
Definition with_right_var (G o : nat) (b : bop) (k : K) (l : lang) : lang :=
  let x := ln l in let y := x + 1 in let z := x + 2 in
  replace_object G o [IBin b; IVar k; IRead y]
    (map (mv o (fun i => match i with O => (x, 0) | _ => (y, 0) end) x) (lp l).(conns) ++ [signal_conn z 0 x 1]) l.
(** l.187-203, "cf": HeavyIrObject("__var~f") has the default argument 0 *)
Definition with_left_var (G o : nat) (b : bop) (l : lang) : lang :=
  let x := ln l in let v := x + 1 in let r := x + 2 in
  replace_object G o [IBin b; IVar kzero; IRead v]
    (map (mv o (fun i => match i with O => (v, 0) | _ => (x, 1) end) x) (lp l).(conns) ++ [signal_conn r 0 x 0]) l.
(** l.139-145: a constant at the right inlet *)
Definition with_constant (G o : nat) (b : bop) (k : K) (l : lang) : lang :=
  let x := ln l in let y := x + 1 in
  replace_object G o [IBin b; IConst k] (map (mv o (fun i => (x, i)) x) (lp l).(conns) ++ [signal_conn y 0 x 1]) l.
(** l.102-126: operators that do nothing *)
Definition is_identity (b : bop) (k : K) : bool :=
  match b with OAdd | OSub => is_zero k | OMul | ODiv => is_one k | ONamed _ => false end.
Definition pass_through (G o : nat) (l : lang) : lang :=
  match at_inlet (lp l) o 0 with
  | [] => remove G o l
  | [c] => replace_object G o []
             (untouched o l ++ map (fun v => retarget c (v.(c_to), v.(c_in))) (at_outlet (lp l) o 0)) l
  | c :: cs => let x := ln l in
      replace_object G o [IBin OAdd]
        (untouched o l ++ retarget c (x, 0) :: map (fun c => retarget c (x, 1)) cs
         ++ map (fun c => refrom c x) (at_outlet (lp l) o 0)) l
  end.
(** l.103-145, "f_" *)
Definition with_fixed (G o : nat) (b : bop) (k : K) (l : lang) : lang :=
  if is_identity b k then pass_through G o l
  else match b with
       | OMul => if is_zero k then remove G o l
                 else if is_minus_one k then becomes G o INeg l
                 else with_constant G o b k l
       | _ => with_constant G o b k l
       end.
(** HLangBinop.reduce *)
Definition reduce_bin (G o : nat) (b : bop) (k : K) (l : lang) : option lang :=
  match fmt_of (at_inlet (lp l) o 0), fmt_of (at_inlet (lp l) o 1), fmt_of (at_outlet (lp l) o 0) with
  | FNone, FNone, _ | FNone, FCtl, _ | FNone, FSig, _ | _, _, FNone => Some (remove G o l)
  | FSig, FSig, _ => Some (becomes G o (IBin b) l)
  | FSig, FCtl, _ => Some (with_right_var G o b k l)
  | FSig, FNone, _ => Some (with_fixed G o b k l)
  | FCtl, FCtl, _ | FCtl, FNone, _ => Some (becomes G o ICtl l)
  | FCtl, FSig, _ => Some (with_left_var G o b l)
  | _, _, _ => None
  end.
(** HLangVar.reduce *)
Definition reduce_var (G o : nat) (k : K) (l : lang) : option lang :=
  match fmt_of (at_inlet (lp l) o 0), fmt_of (at_outlet (lp l) o 0) with
  | FNone, FSig => Some (becomes G o (IConst k) l)
  | FCtl, FSig => let x := ln l in let y := x + 1 in
      Some (replace_object G o [IVar k; IRead x] (map (mv o (fun i => (x, i)) y) (lp l).(conns)) l)
  | FNone, FNone | FNone, FCtl | FCtl, FNone | FCtl, FCtl => Some (becomes G o ICtl l)
  | _, _ => None
  end.
(** HeavyGraph.reduce: one object after the other. *)
Definition reduce_one (p : nat * nat) (l : lang) : option lang :=
  match lt l (snd p) with
  | LBin b args => reduce_bin (fst p) (snd p) b (k_of args) l
  | LVar k => reduce_var (fst p) (snd p) k l
  | LIr _ => Some l
  end.
Fixpoint reduce_all (todo : list (nat * nat)) (l : lang) : option lang :=
  match todo with
  | [] => Some l
  | p :: todo' => match reduce_one p l with Some l' => reduce_all todo' l' | None => None end
  end.

(** ** Before that, in pd2hv *)
(** convert_ctrl_to_sig_connections_at_inlet, PdBinopObject.py:106-138: a new [var 0] takes the control
    connections of inlet [i]. *)
Definition to_signal (G o i : nat) (l : lang) : lang :=
  let n := ln l in
  mkLang {| kind_of := fun x => if Nat.eqb x n then Leaf true [None] [Some false] None
                                else if Nat.eqb x G then match (lp l).(kind_of) G with
                                                         | Graph objs il ol => Graph (objs ++ [n]) il ol
                                                         | k => k end
                                else (lp l).(kind_of) x;
            conns := map (fun c => if Nat.eqb c.(c_to) o && Nat.eqb c.(c_in) i && negb c.(c_sig) then retarget c (n, 0) else c) (lp l).(conns)
                     ++ [signal_conn n 0 o i] |}
         (fun x => if Nat.eqb x n then LVar kzero else lt l x)
         (S n).
(** validate_configuration, l.71-96, of an operator with "~". *)
Definition validate_bin (G o : nat) (args : option K) (l : lang) : option lang :=
  let l1 := if existsb c_sig (at_inlet (lp l) o 0) then l else to_signal G o 0 l in
  let right := at_inlet (lp l1) o 1 in
  match args, existsb c_sig right, right with
  | Some _, true, _ => None
  | None, false, _ :: _ => Some (to_signal G o 1 l1)
  | _, _, _ => Some l1
  end.
Definition validate_one (p : nat * nat) (l : lang) : option lang :=
  match lt l (snd p) with LBin _ args => validate_bin (fst p) (snd p) args l | _ => Some l end.
Fixpoint validate_all (todo : list (nat * nat)) (l : lang) : option lang :=
  match todo with
  | [] => Some l
  | p :: todo' => match validate_one p l with Some l' => validate_all todo' l' | None => None end
  end.
(** The patch and the types that cascade_expansion and fma_replacement (RewriteModel) work on. *)
Definition as_work (l : lang) : work :=
  {| pt := lp l;
     ty := fun o => match lt l o with LIr (IBin OMul) => Mul | LIr (IBin OAdd) => Add | LIr (IBin OSub) => Sub | _ => Other end;
     nxt := ln l |}.
End Ops.
Arguments irty : clear implicits. Arguments lobj : clear implicits. Arguments lang : clear implicits.
