(** Model of control objects that rearrange messages:
    /repo/hvcc/generators/ir2c/static/HvControlSlice.c, HvControlPack.c, HvControlVar.c,
    HvControlIf.c, HvControlCast.c and the code generated by
    /repo/hvcc/generators/ir2c/ControlSwitchcase.py and ControlMessage.py.

    An object reacts to a message on an inlet by changing its state and calling sendMessage(outlet,
    message) some number of times: the list of (outlet, message) in calling order.  [mem] is the
    memory the symbol pointers point into.  Conversions float -> int that are undefined in C are
    [None] of [f2i]. *)
From Verif Require Export MessageModel.

Definition emits := list (Z * msg).

(** * __slice *)
Record slice_obj := mkSlice { sl_i : Z; sl_n : Z }.      (* HvControlSlice.h *)

Section Slice.
Variable f2i : Z -> option Z.    (* (int) f, on float bits *)

(** HvControlSlice.c:29-45. *)
Definition slice_hot (o : slice_obj) (m : msg) : outcome emits :=
  if sl_i o <? m_n m then                                          (* l.32 *)
    let x := m_n m - sl_i o in                                     (* l.33 *)
    let x := if 0 <? sl_n o then Z.min x (sl_n o) else x in        (* l.34 *)
    let! c := msg_getCoreSize x in                                 (* l.36 msg_init *)
    guard! (0 <=? sl_i o) && (sl_i o + x <=? zlen (m_el m)) in     (* l.37 hv_memcpy *)
    Ok [(0, mkMsg (m_ts m) (u16 x) (u16 c) (firstn (Z.to_nat x) (skipn (Z.to_nat (sl_i o)) (m_el m))))]
  else
    let! n := msg_initWithBang (m_ts m) in Ok [(1, n)].            (* l.41-43 *)

(** msg_isFloat / msg_getFloat / (int): [None] when the element is not a float. *)
Definition int_elem (m : msg) (i : Z) : outcome (option Z) :=
  let! b := test_elem is_f m i in
  if b then
    let! e := get_elem m i in
    match e with
    | Flt bits => match f2i bits with Some v => Ok (Some v) | None => UB end
    | _ => UB
    end
  else Ok None.

(** cSlice_onMessage, HvControlSlice.c:27-63. *)
Definition cSlice_onMessage (o : slice_obj) (letIn : Z) (m : msg) : outcome (slice_obj * emits) :=
  if letIn =? 0 then let! e := slice_hot o m in Ok (o, e)
  else if letIn =? 1 then
    let! a := int_elem m 0 in
    match a with
    | None => Ok (o, [])
    | Some i =>
      let! b := int_elem m 1 in
      Ok (mkSlice i (match b with Some n => n | None => sl_n o end), [])
    end
  else if letIn =? 2 then
    let! a := int_elem m 0 in
    Ok (match a with Some n => mkSlice (sl_i o) n | None => o end, [])
  else Ok (o, []).
End Slice.

(** * __pack: the state is o->msg *)

(** cPack_init, HvControlPack.c:19-34; [vals] the float initialisers. *)
Definition cPack_init (vals : list Z) : outcome msg :=
  let! m0 := msg_init (length vals) (zlen vals) 0 in
  fold_left (fun acc '(i, b) => let! m := acc in msg_setFloat m i b)
            (combine (map Z.of_nat (seq 0 (length vals))) vals) (Ok m0).

(** The loop of l.46-53: i = k-1, ..., 0. *)
Fixpoint pack_store (mem : bytes) (o m : msg) (k : nat) : outcome msg :=
  match k with
  | O => Ok o
  | S k' =>
    let i := Z.of_nat k' in
    let! e := get_elem m i in
    let! o1 := match e with
               | Flt b => msg_setFloat o i b
               | Sym _ | Hsh _ => let! h := msg_getHash mem m i in msg_setHash o i h
               | Bang => Ok o
               end in
    pack_store mem o1 m k'
  end.

(** data.s of an element (HvMessage.h:157-160): a pointer only if the element is a symbol; NULL for a
    bang; reading it from a float or a hash gives an indeterminate pointer. *)
Definition msg_getSymbol (m : msg) (i : Z) : outcome Z :=
  let! e := get_elem m i in
  match e with Sym p => Ok p | Bang => Ok 0 | _ => UB end.

(** cPack_onMessage, HvControlPack.c:40-70. *)
Definition cPack_onMessage (mem : bytes) (o : msg) (letIn : Z) (m : msg) : outcome (msg * emits) :=
  if letIn =? 0 then
    let! o1 := pack_store mem o m (Z.to_nat (Z.min (m_n o) (m_n m))) in
    let o2 := mkMsg (m_ts m) (m_n o1) (m_nb o1) (m_el o1) in       (* l.54 *)
    Ok (o2, [(0, o2)])                                              (* l.55 *)
  else
    let! e := get_elem m 0 in
    match e with
    | Flt b => let! o1 := msg_setFloat o letIn b in Ok (o1, [])
    | Sym _ => let! p := msg_getSymbol m 1 in                       (* l.61 *)
               let! o1 := msg_setSymbol mem o letIn p in Ok (o1, [])
    | Hsh h => let! o1 := msg_setHash o letIn h in Ok (o1, [])
    | Bang => Ok (o, [])
    end.

(** * __switchcase *)

(** A case label: a number (its float bits) or a string. *)
Inductive label := LNum (bits : Z) | LStr (s : list Z).
(** HeavyObject.get_hash, HeavyObject.py:163-205. *)
Definition label_hash (c : label) : option Z :=
  match c with LNum b => Some b | LStr s => py_get_hash s end.
Fixpoint label_hashes (l : list label) : option (list Z) :=
  match l with
  | [] => Some []
  | c :: l' => match label_hash c, label_hashes l' with Some h, Some hs => Some (h :: hs) | _, _ => None end
  end.
Definition SYMBOL_HASH : Z := hv_string_to_hash [115; 121; 109; 98; 111; 108].   (* "symbol" *)

(** A C switch with these case labels compiles only without duplicates. *)
Fixpoint no_dups (l : list Z) : bool :=
  match l with [] => true | h :: l' => negb (existsb (Z.eqb h) l') && no_dups l' end.
Fixpoint find_case (h : Z) (l : list Z) (k : Z) : option Z :=
  match l with [] => None | x :: l' => if h =? x then Some k else find_case h l' (k + 1) end.

(** cSwitchcase_X_onMessage, ControlSwitchcase.py:56-86: the outlet whose connections get [m].
    The labels were generated ([hs]) and compiled ([no_dups hs]). *)
Definition switchcase_outlet (mem : bytes) (hs : list Z) (m : msg) : outcome Z :=
  let! h0 := msg_getHash mem m 0 in
  let msgIndex := if h0 =? SYMBOL_HASH then 1 else 0 in
  let! h := msg_getHash mem m msgIndex in
  Ok (match find_case h hs 0 with Some k => k | None => zlen hs end).

(** * __var *)
(** HvControlVar.c:36-90; the state is the element o->e (never a symbol or bang). *)
Definition cVar_onMessage (mem : bytes) (o : elem) (letIn : Z) (m : msg) : outcome (elem * emits) :=
  if letIn =? 0 then
    let! e := get_elem m 0 in
    match e with
    | Bang => match o with
              | Flt b => let! n := msg_initWithFloat (m_ts m) b in Ok (o, [(0, n)])
              | Hsh h => let! n := msg_initWithHash (m_ts m) h in Ok (o, [(0, n)])
              | _ => Ok (o, [])
              end
    | Flt b => Ok (Flt b, [(0, m)])
    | Sym _ | Hsh _ => let! h := msg_getHash mem m 0 in Ok (Hsh h, [(0, m)])
    end
  else if letIn =? 1 then
    let! e := get_elem m 0 in
    match e with
    | Flt b => Ok (Flt b, [])
    | Sym _ | Hsh _ => let! h := msg_getHash mem m 0 in Ok (Hsh h, [])
    | Bang => Ok (o, [])
    end
  else Ok (o, []).

(** * __if *)
(** f != 0.0f on float bits. *)
Definition f_nonzero (b : Z) : bool := negb ((b =? 0) || (b =? 2147483648)).
(** HvControlIf.c:24-43. *)
Definition cIf_onMessage (k : bool) (letIn : Z) (m : msg) : outcome (bool * emits) :=
  if letIn =? 0 then Ok (k, [(if k then 1 else 0, m)])
  else if letIn =? 1 then
    let! b := test_elem is_f m 0 in
    if b then
      let! e := get_elem m 0 in
      match e with Flt f => Ok (f_nonzero f, []) | _ => UB end
    else Ok (k, [])
  else Ok (k, []).

(** * __cast_b, __cast_f, __cast_s *)
Inductive cast := CastBang | CastFloat | CastSymbol.
(** HvControlCast.c:19-64; [bang_p], [float_p] the addresses of the literals "bang", "float". *)
Definition cCast_onMessage (mem : bytes) (bang_p float_p : Z) (c : cast) (m : msg) : outcome emits :=
  match c with
  | CastBang => let! n := msg_initWithBang (m_ts m) in Ok [(0, n)]
  | CastFloat =>
      let! b := test_elem is_f m 0 in
      if b then
        let! e := get_elem m 0 in
        match e with Flt f => let! n := msg_initWithFloat (m_ts m) f in Ok [(0, n)] | _ => UB end
      else Ok []
  | CastSymbol =>
      let! e := get_elem m 0 in
      match e with
      | Bang => let! n := msg_initWithSymbol mem (m_ts m) bang_p in Ok [(0, n)]
      | Flt _ => let! n := msg_initWithSymbol mem (m_ts m) float_p in Ok [(0, n)]
      | Sym _ => Ok [(0, m)]
      | Hsh _ => Ok []
      end
  end.

(** * Message boxes *)
(** One element of a message box, as classified by ControlMessage.py:57-75. *)
Inductive box_elem :=
| BNum (bits : Z)        (* float(e) succeeds *)
| BBang                  (* "bang" *)
| BArg (k : Z)           (* "$k": element k-1 of the incoming message *)
| BSym (p : Z).          (* any other text; [p] the address of the literal *)
Fixpoint box_fill (mem : bytes) (n m : msg) (i : Z) (l : list box_elem) : outcome msg :=
  match l with
  | [] => Ok m
  | e :: l' =>
    let! m1 := match e with
               | BNum b => msg_setFloat m i b
               | BBang => msg_setBang m i
               | BArg k => msg_setElementToFrom mem m i n (k - 1)
               | BSym p => msg_setSymbol mem m i p
               end in
    box_fill mem n m1 (i + 1) l'
  end.
(** cMsg_X_sendMessage, ControlMessage.py:43-88: one outgoing message per entry of "local". *)
Fixpoint cMsg_sendMessage (mem : bytes) (boxes : list (list box_elem)) (n : msg) : outcome (list msg) :=
  match boxes with
  | [] => Ok []
  | b :: boxes' =>
    let! m0 := msg_init (length b) (zlen b) (m_ts n) in
    let! m := box_fill mem n m0 0 b in
    let! ms := cMsg_sendMessage mem boxes' n in
    Ok (m :: ms)
  end.
