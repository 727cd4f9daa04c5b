(** What a control expr should send. *)
From Verif Require Export ExprCtlModel.

(** A message: inlet, time, elements. *)
Record event := mkEvent { e_inlet : Z; e_ts : Z; e_els : list elem }.
Definition message (e : event) : msg := mkMsg (e_ts e) (zlen (e_els e)) (24 + 16 * (zlen (e_els e) - 1)) (map Some (e_els e)).
(** The value that an event gives to variable [i] (from 0): a list at the first inlet gives its [i]-th number
    to variable [i], unless it starts with a bang; at another inlet, the first element of the message is the
    value of that inlet's variable. *)
Definition number_at (els : list elem) (i : nat) : option Z := match nth_error els i with Some (Flt b) => Some b | _ => None end.
Definition gives (e : event) (i : nat) : option Z :=
  if e_inlet e =? 0 then match e_els e with Bang :: _ => None | els => number_at els i end
  else if e_inlet e =? Z.of_nat i then number_at (e_els e) 0 else None.
(** The latest value of each variable, 0 before the first one; the history is newest first. *)
Fixpoint latest (newest_first : list event) (i : nat) : Z :=
  match newest_first with
  | [] => 0
  | e :: h => match gives e i with Some v => v | None => latest h i end
  end.
Definition values (newest_first : list event) : list Z := map (latest newest_first) (seq 0 100).
(** One answer per message at the first inlet, at its time, with the values known then. *)
Fixpoint answers (eval : list Z -> Z) (past : list event) (es : list event) : list (Z * Z) :=
  match es with
  | [] => []
  | e :: es' => (if e_inlet e =? 0 then [(e_ts e, eval (values (e :: past)))] else []) ++ answers eval (e :: past) es'
  end.
(** The object receiving messages one after the other. *)
Fixpoint receive (eval : list Z -> Z) (args : list Z) (es : list event) : outcome (list Z * list (Z * Z)) :=
  match es with
  | [] => Ok (args, [])
  | e :: es' =>
    let! r := cExpr_onMessage eval args (e_inlet e) (message e) in
    let! r' := receive eval (fst r) es' in Ok (fst r', snd r ++ snd r')
  end.
