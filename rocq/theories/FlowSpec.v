(** What a patch does with messages. *)
From Verif Require Import FlowModel.

(** How a trigger outlet converts. *)
Inductive ckind := KAny | KBang | KFloat | KSymbol.

Section Programs.
Context {M S : Type}.

(** What an object does with one message: read and write state (its own, or shared such as tables
    and the scheduler) and send messages, depth first: [Emit] returns when everything caused by
    the sent message is done. *)
Inductive prog :=
| Ret
| Get (b : Z) (k : S -> prog)
| Put (b : Z) (s : S) (k : prog)
| Emit (outlet : nat) (m : M) (k : prog).

(** Nodes of a patch.  [NBox b]: an ordinary object with behaviour (and name) b. *)
Inductive node :=
| NBox (b : Z)
| NTrigger (ks : list ckind)
| NCast (k : ckind)
| NSub (inlets : nat -> Z)
| NOutlet (graph : Z) (index : nat)
| NInlet
| NNone.
Record flow := mkFlow { f_kind : Z -> node; f_outs : Z -> nat -> list (Z * nat) }.

(** Where a node without behaviour of its own passes a message: conversions and (object, outlet)s, in
    order.  A trigger fires its outlets from right to left; a message to a subpatch leaves from its
    inlet object; a message to an outlet object leaves from its subpatch. *)
Definition passes (n : node) (self : Z) (inlet : nat) : list (ckind * (Z * nat)) :=
  match n with
  | NTrigger ks => rev (map (fun ik => (snd ik, (self, fst ik))) (indexed ks))
  | NCast k => [(k, (self, O))]
  | NSub inlets => [(KAny, (inlets inlet, O))]
  | NOutlet gr idx => [(KAny, (gr, idx))]
  | _ => []
  end.

(** Objects send on outlets satisfying P only. *)
Fixpoint emits_ok (P : nat -> Prop) (p : prog) : Prop :=
  match p with
  | Ret => True
  | Get _ k => forall s, emits_ok P (k s)
  | Put _ _ k => emits_ok P k
  | Emit out _ k => P out /\ emits_ok P k
  end.

Context (beh : Z -> nat -> M -> prog) (conv : ckind -> M -> option M).
Definition convert (k : ckind) (m : M) : option M := match k with KAny => Some m | _ => conv k m end.

Inductive task :=
| TDeliver (oi : Z * nat) (m : M)
| TSend (l : list (Z * nat)) (m : M)
| TRun (o : Z) (p : prog)
| TPass (l : list (ckind * (Z * nat))) (m : M).

Definition store_set (st : Z -> S) (b : Z) (s : S) : Z -> S := fun x => if x =? b then s else st x.

(** [exec f t st st' tr]: task t ends, turns the states st into st', and the ordinary objects
    receive the messages tr (behaviour, inlet, message) in this order. *)
Inductive exec (f : flow) : task -> (Z -> S) -> (Z -> S) -> list (Z * nat * M) -> Prop :=
| E_box o i m b st st' tr : f_kind f o = NBox b -> exec f (TRun o (beh b i m)) st st' tr ->
    exec f (TDeliver (o, i) m) st st' ((b, i, m) :: tr)
| E_pass o i m st st' tr : (forall b, f_kind f o <> NBox b) -> exec f (TPass (passes (f_kind f o) o i) m) st st' tr ->
    exec f (TDeliver (o, i) m) st st' tr
| E_nil m st : exec f (TSend [] m) st st []
| E_cons x l m st st1 st2 tr1 tr2 : exec f (TDeliver x m) st st1 tr1 -> exec f (TSend l m) st1 st2 tr2 ->
    exec f (TSend (x :: l) m) st st2 (tr1 ++ tr2)
| E_pnil m st : exec f (TPass [] m) st st []
| E_pskip k src l m st st' tr : convert k m = None -> exec f (TPass l m) st st' tr -> exec f (TPass ((k, src) :: l) m) st st' tr
| E_pcons k src l m m' st st1 st2 tr1 tr2 : convert k m = Some m' -> exec f (TSend (f_outs f (fst src) (snd src)) m') st st1 tr1 ->
    exec f (TPass l m) st1 st2 tr2 -> exec f (TPass ((k, src) :: l) m) st st2 (tr1 ++ tr2)
| E_ret o st : exec f (TRun o Ret) st st []
| E_get o b k st st' tr : exec f (TRun o (k (st b))) st st' tr -> exec f (TRun o (Get b k)) st st' tr
| E_put o b s k st st' tr : exec f (TRun o k) (store_set st b s) st' tr -> exec f (TRun o (Put b s k)) st st' tr
| E_emit o out m k st st1 st2 tr1 tr2 : exec f (TSend (f_outs f o out) m) st st1 tr1 -> exec f (TRun o k) st1 st2 tr2 ->
    exec f (TRun o (Emit out m k)) st st2 (tr1 ++ tr2).
End Programs.
Arguments prog : clear implicits.
Arguments Ret {M S}.

(** The patch drawn by a graph: its control connections. *)
Definition flow_of (kind : Z -> node) (g : graph) : flow := mkFlow kind (control_targets g).

(** ** Well-formed graphs *)
Definition conn_dec (a b : conn) : {a = b} + {a <> b}.
Proof. decide equality; auto using Bool.bool_dec, Nat.eq_dec, Z.eq_dec. Defined.
(** Both ends know each connection, as often; [nin], [nout]: numbers of lets. *)
Definition consistent (nin nout : Z -> nat) (g : graph) : Prop :=
  (forall o i c, In c (g_ins g o i) -> c_to c = o /\ c_in c = i) /\
  (forall o i c, In c (g_outs g o i) -> c_from c = o /\ c_out c = i) /\
  (forall c, count_occ conn_dec (g_ins g (c_to c) (c_in c)) c = count_occ conn_dec (g_outs g (c_from c) (c_out c)) c) /\
  (forall o i c, In c (g_outs g o i) -> (c_out c < nout (c_from c) /\ c_in c < nin (c_to c))%nat).
Definition unconnected (g : graph) (x : Z) : Prop := forall i, g_ins g x i = [] /\ g_outs g x i = [].

(** A message from x reaches y directly or through pass-through outlets of triggers only. *)
Inductive reaches (kind : Z -> node) (g : graph) (x : Z) : Z -> Prop :=
| R_conn i c : In c (g_outs g x i) -> reaches kind g x (c_to c)
| R_trigger t ks i c : reaches kind g x t -> kind t = NTrigger ks -> nth_error ks i = Some KAny -> In c (g_outs g t i) ->
    reaches kind g x (c_to c).

(** The kinds of the objects after a reduction step: the reduced object is gone. *)
Definition set_kind (kind : Z -> node) (x : Z) (n : node) : Z -> node := fun y => if y =? x then n else kind y.
Definition kind_after (kind : Z -> node) (oa : Z * action) : Z -> node :=
  match oa with
  | (o, ARename n _ _) => set_kind (set_kind kind n (kind o)) o NNone
  | (o, ASeq casts) =>
      match kind o with
      | NTrigger ks => set_kind (fold_right (fun kc kd => match snd kc with Some x => set_kind kd x (NCast (fst kc)) | None => kd end) kind (combine ks casts)) o NNone
      | _ => kind
      end
  end.
(** An object can be reduced this way. *)
Definition new_ids (a : action) : list Z :=
  match a with ARename n _ _ => [n] | ASeq casts => flat_map (fun c => match c with Some x => [x] | None => [] end) casts end.
Definition action_ok (nin nout : Z -> nat) (kind : Z -> node) (oa : Z * action) : Prop :=
  match oa with
  | (o, ARename n i j) => (exists b, kind o = NBox b) /\ i = nin o /\ j = nout o /\ nin n = nin o /\ nout n = nout o
  | (o, ASeq casts) => exists ks, kind o = NTrigger ks /\ nin o = 1%nat /\ nout o = length ks /\
      Forall2 (fun k c => match k with KAny => c = None | _ => exists x, c = Some x /\ nin x = 1%nat /\ nout x = 1%nat end) ks casts
  end.
(** Subgraphs and outlet objects refer to inlet objects and subgraphs. *)
Definition nested_ok (kind : Z -> node) : Prop :=
  (forall o ils i, kind o = NSub ils -> kind (ils i) = NInlet) /\
  (forall o gr idx, kind o = NOutlet gr idx -> exists ils, kind gr = NSub ils).
(** The patch a compilation starts from: [todo] lists the objects to reduce. *)
Record source_patch (nin nout : Z -> nat) (kind : Z -> node) (g : graph) (todo : list (Z * action)) : Prop := {
  sp_consistent : consistent nin nout g;
  sp_nested : nested_ok kind;
  sp_actions : forall oa, In oa todo -> action_ok nin nout kind oa;
  sp_ids : NoDup (map fst todo ++ flat_map (fun oa => new_ids (snd oa)) todo);
  sp_fresh : forall oa x, In oa todo -> In x (new_ids (snd oa)) -> kind x = NNone /\ unconnected g x;
  sp_control : forall o casts i c, In (o, ASeq casts) todo -> In c (g_outs g o i) -> c_ctl c = true;
  sp_complete : forall o ks, kind o = NTrigger ks -> In o (map fst todo);
  (** no object in the list feeds itself directly or through pass-through outlets alone *)
  sp_noloop : forall oa, In oa todo -> ~ reaches kind g (fst oa) (fst oa)
}.
(** The object that stands for o after the reduction. *)
Fixpoint renamed (todo : list (Z * action)) (o : Z) : Z :=
  match todo with
  | [] => o
  | (x, ARename n _ _) :: r => if o =? x then n else renamed r o
  | _ :: r => renamed r o
  end.
Definition kinds_after (kind : Z -> node) (todo : list (Z * action)) : Z -> node := fold_left kind_after todo kind.

(** The places of a reduced patch. *)
Definition place_of (kind : Z -> node) (o : Z) : place :=
  match kind o with NSub ils => PSub ils | NOutlet gr idx => POutlet gr idx | NInlet => PInlet | _ => PObject end.
(** The compiled patch: each object sends what its generated sendMessage function calls. *)
Definition compiled (kind : Z -> node) (nout : Z -> nat) (lists : Z -> nat -> list (Z * nat)) : flow :=
  mkFlow kind (fun o out => c_calls (c_impl (map (lists o) (seq O (nout o)))) out).
(** Objects send on the outlets they have; conversions have one outlet. *)
Definition outlets_ok {M S} (beh : Z -> nat -> M -> prog M S) (nout : Z -> nat) (kind : Z -> node) : Prop :=
  (forall o b i m, kind o = NBox b -> emits_ok (fun j => (j < nout o)%nat) (beh b i m)) /\
  (forall o k, kind o = NCast k -> nout o = 1%nat).

(** ** Patches as drawn *)
Definition wire_from (o : Z) (i : nat) (c : conn) : bool := (c_from c =? o) && (c_out c =? i)%nat.
Definition wire_to (o : Z) (i : nat) (c : conn) : bool := (c_to c =? o) && (c_in c =? i)%nat.
(** The message wires of each outlet, in the order in which they are listed. *)
Definition drawn (kind : Z -> node) (conns : list conn) : flow :=
  mkFlow kind (fun o i => map (fun c => (c_to c, c_in c)) (filter c_ctl (filter (wire_from o i) conns))).
(** HeavyGraph built by one connect_objects for each wire (HeavyParser.py graph_from_object). *)
Definition build (conns : list conn) : option graph := gfold connect_objects conns (Some (mkGraph (fun _ _ => []) (fun _ _ => []))).
