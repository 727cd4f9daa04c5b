(** Two rewritings of a reduced patch: cascade_expansion (implicit sums) and fma_replacement.
    Source: hvcc/core/hv2ir/HeavyGraph.py:645-740 (Python).
    On top of the patches of GraphModel.v.  New objects get the numbers from [nxt] on (in the code:
    random ids).  Removed objects become [Outlet], an object without outlets, with no connections. *)
From Verif Require Export GraphModel.

(** The object types the rewritings look at *)
Inductive op := Mul | Add | Sub | Fma | Fms | Other.
Definition op_eqb (a b : op) : bool :=
  match a, b with
  | Mul, Mul | Add, Add | Sub, Sub | Fma, Fma | Fms, Fms | Other, Other => true
  | _, _ => false
  end.
Record work := { pt : patch; ty : nat -> op; nxt : nat }.

Definition hits (o i : nat) (c : conn) : bool := c.(c_sig) && (Nat.eqb c.(c_to) o && Nat.eqb c.(c_in) i).
Definition retarget (c : conn) (d : nat * nat) : conn :=
  {| c_from := c.(c_from); c_out := c.(c_out); c_to := fst d; c_in := snd d; c_sig := c.(c_sig) |}.
Definition signal_conn (a i b j : nat) : conn := {| c_from := a; c_out := i; c_to := b; c_in := j; c_sig := true |}.
(** HeavyGraph.py:655-681: where the k-th signal connection of the inlet goes *)
Definition summand (n k : nat) : nat * nat := match k with O => (n, 0) | S k' => (n + k', 1) end.
Fixpoint spread (o i n k : nat) (l : list conn) : list conn :=
  match l with
  | [] => []
  | c :: l' => if hits o i c then retarget c (summand n k) :: spread o i n (S k) l' else c :: spread o i n k l'
  end.
(** The connections between the new adders, and from the last one to the inlet *)
Definition chain (o i n len : nat) : list conn :=
  map (fun k => signal_conn (n + k) 0 (n + S k) 0) (seq 0 (len - 2)) ++ [signal_conn (n + (len - 2)) 0 o i].
Definition adder : kind := Leaf true [Some false; Some false] [Some false] None.
Definition between (a b x : nat) : bool := Nat.leb a x && Nat.ltb x b.
(** HeavyGraph.py:650-687, one inlet [i] of object [o] in graph [G] *)
Definition expand_inlet (G o i : nat) (w : work) : work :=
  let len := length (signals (at_inlet w.(pt) o i)) in
  if Nat.leb len 1 then w
  else
    let n := w.(nxt) in
    let n' := n + (len - 1) in
    {| pt := {| kind_of := fun x =>
                  if between n n' x then adder
                  else if Nat.eqb x G then match w.(pt).(kind_of) G with Graph objs il ol => Graph (objs ++ seq n (len - 1)) il ol | k => k end
                  else w.(pt).(kind_of) x;
                conns := spread o i n 0 w.(pt).(conns) ++ chain o i n len |};
       ty := fun x => if between n n' x then Add else w.(ty) x;
       nxt := n' |}.
(** HeavyGraph.py:649-690: all inlets of all objects, and the subgraphs, in the order they are visited *)
Fixpoint inlets_to_expand (depth : nat) (g : patch) (G : nat) : list (nat * nat * nat) :=
  match depth, g.(kind_of) G with
  | S k, Graph objs _ _ =>
      flat_map (fun o => map (fun i => (G, o, i)) (seq 0 (num_inlets g o)) ++ inlets_to_expand k g o) objs
  | _, _ => []
  end.
Definition cascade_expansion (depth root : nat) (w : work) : work :=
  fold_left (fun w p => expand_inlet (fst (fst p)) (snd (fst p)) (snd p) w) (inlets_to_expand depth w.(pt) root) w.

(** ** fma_replacement *)
(** HeavyGraph.py:698-709, the conditions; the result: the +~ or -~, the inlet the product goes to, and the fused type *)
Definition fma_match (w : work) (o : nat) : option (nat * nat * op) :=
  let g := w.(pt) in
  if op_eqb (w.(ty) o) Mul && Nat.eqb (length (at_inlet g o 0)) 1 && Nat.eqb (length (at_inlet g o 1)) 1 then
    match at_outlet g o 0 with
    | [c] =>
        let a := c.(c_to) in
        if (op_eqb (w.(ty) a) Add || (op_eqb (w.(ty) a) Sub && Nat.eqb c.(c_in) 0))
           && Nat.eqb (length (at_inlet g a 0)) 1 && Nat.eqb (length (at_inlet g a 1)) 1 && negb (Nat.eqb (length (at_outlet g a 0)) 0)
        then Some (a, c.(c_in), if op_eqb (w.(ty) a) Add then Fma else Fms)
        else None
    | _ => None
    end
  else None.
(** HeavyGraph.py:711-737.  The connections of the -~ / +~ outlet are appended (connect_objects); the
    others keep their place. *)
Definition refrom (c : conn) (o : nat) : conn :=
  {| c_from := o; c_out := c.(c_out); c_to := c.(c_to); c_in := c.(c_in); c_sig := c.(c_sig) |}.
Definition fma_inputs (o a i n : nat) (c : conn) : conn :=
  if Nat.eqb c.(c_to) o && Nat.leb c.(c_in) 1 then retarget c (n, c.(c_in))
  else if Nat.eqb c.(c_to) a && Nat.eqb c.(c_in) (1 - i) then retarget c (n, 2)
  else c.
Definition replace_fma (G o : nat) (w : work) : work :=
  match fma_match w o with
  | None => w
  | Some (a, i, t) =>
      let g := w.(pt) in
      let n := w.(nxt) in
      let moved := map (fma_inputs o a i n) g.(conns) in
      let conns' := moved ++ map (fun c => refrom c n) (filter (fun c => Nat.eqb c.(c_from) a && Nat.eqb c.(c_out) 0) moved) in
      {| pt := {| kind_of := fun x =>
                    if Nat.eqb x n then Leaf true [Some false; Some false; Some false] [Some false] None
                    else if Nat.eqb x o || Nat.eqb x a then Outlet
                    else if Nat.eqb x G then match g.(kind_of) G with
                                             | Graph objs il ol => Graph (filter (fun y => negb (Nat.eqb y o || Nat.eqb y a)) objs ++ [n]) il ol
                                             | k => k end
                    else g.(kind_of) x;
                  conns := filter (fun c => negb (Nat.eqb c.(c_from) o || Nat.eqb c.(c_to) o || Nat.eqb c.(c_from) a || Nat.eqb c.(c_to) a)) conns' |};
         ty := fun x => if Nat.eqb x n then t else if Nat.eqb x o || Nat.eqb x a then Other else w.(ty) x;
         nxt := S n |}
  end.
Fixpoint objects_to_fuse (depth : nat) (g : patch) (G : nat) : list (nat * nat) :=
  match depth, g.(kind_of) G with
  | S k, Graph objs _ _ => flat_map (fun o => (G, o) :: objects_to_fuse k g o) objs
  | _, _ => []
  end.
Definition fma_replacement (depth root : nat) (w : work) : work :=
  fold_left (fun w p => replace_fma (fst p) (snd p) w) (objects_to_fuse depth w.(pt) root) w.

(** HvMath.h:738-786, the fused kernels on a lane, by build.  [Neon8]: __ARM_ARCH >= 8. *)
Inductive build := Avx | Sse | Neon7 | Neon8 | Scalar.
Section Kernels.
Context {A : Type} (add sub mul : A -> A -> A).
Definition hv_fma (b : build) (x y z : A) : A :=
  match b with
  | Neon8 => add z (mul x y)          (* vfmaq_f32(bIn2, bIn0, bIn1) *)
  | _ => add (mul x y) z
  end.
Definition hv_fms (b : build) (x y z : A) : A :=
  match b with
  | Neon8 => sub z (mul x y)          (* vfmsq_f32(bIn2, bIn0, bIn1): first operand minus the product *)
  | _ => sub (mul x y) z
  end.
(** What the objects compute; [f] for all other types *)
Definition kernels (b : build) (t : nat -> op) (f : nat -> list A -> nat -> A) (o : nat) (xs : list A) (j : nat) : A :=
  match t o, xs with
  | Mul, [x; y] => mul x y
  | Add, [x; y] => add x y
  | Sub, [x; y] => sub x y
  | Fma, [x; y; z] => hv_fma b x y z
  | Fms, [x; y; z] => hv_fms b x y z
  | _, _ => f o xs j
  end.
End Kernels.
