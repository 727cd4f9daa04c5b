(** Model of the messages of a control [expr], /repo/hvcc/generators/ir2c/static/HvControlExpr.c:19-61.
    Floats are bit patterns; [eval] is the generated cExpr_..._evaluate. *)
From Verif Require Export MessageModel.

Definition MAX_EXPR_ARGS : nat := 100.                       (* HvControlExpr.h:26 *)
(** cExpr_init, HvControlExpr.c:19-25. *)
Definition cExpr_init : list Z := repeat 0 MAX_EXPR_ARGS.

(** o->args[i] = v; outside of the array the write is undefined. *)
Fixpoint upd_arg (l : list Z) (i : nat) (v : Z) : option (list Z) :=
  match l, i with
  | [], _ => None
  | _ :: l', O => Some (v :: l')
  | x :: l', S i => match upd_arg l' i v with Some r => Some (x :: r) | None => None end
  end.
Definition store_arg (args : list Z) (i v : Z) : outcome (list Z) :=
  if i <? 0 then UB else match upd_arg args (Z.to_nat i) v with Some r => Ok r | None => UB end.
(** "if (msg_isFloat(m, j)) o->args[i] = msg_getFloat(m, j);", l.41-43 and 55-57. *)
Definition store_elem (args : list Z) (m : msg) (i j : Z) : outcome (list Z) :=
  let! b := test_elem is_f m j in
  if b then
    let! e := get_elem m j in
    match e with Flt bits => store_arg args i bits | _ => UB end
  else Ok args.
(** l.40: for (int i = n - 1; i >= 0; --i), [n] = the number of iterations left. *)
Fixpoint store_all (n : nat) (args : list Z) (m : msg) : outcome (list Z) :=
  match n with
  | O => Ok args
  | S i => let! args := store_elem args m (Z.of_nat i) (Z.of_nat i) in store_all i args m
  end.
(** cExpr_onMessage, l.31-61: the new state and the values sent to outlet 0. *)
Definition cExpr_onMessage (eval : list Z -> Z) (args : list Z) (letIn : Z) (m : msg) : outcome (list Z * list (Z * Z)) :=
  if letIn =? 0 then
    let! b := test_elem is_b m 0 in
    let! args := if b then Ok args else store_all (Z.to_nat (Z.min (m_n m) 100)) args m in
    Ok (args, [(m_ts m, eval args)])
  else
    let! args := store_elem args m letIn 0 in Ok (args, []).
