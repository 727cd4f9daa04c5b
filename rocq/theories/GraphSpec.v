(** What a reduced patch means, independently of ordering and buffers: the signal at every outlet. *)
From Verif Require Import GraphModel.

(** [o] is directly in subgraph [G]. *)
Definition inside (g : patch) (o G : nat) : Prop :=
  match g.(kind_of) G with Graph objs _ _ => In o objs | _ => False end.
(** [o] is somewhere in the patch [root]. *)
Inductive within (g : patch) (root : nat) : nat -> Prop :=
| within_root : within g root root
| within_in o G : inside g o G -> within g root G -> within g root o.
(** Objects with something to do every block: signal objects, subgraphs that contain one (or an adc~). *)
Inductive processes (g : patch) : nat -> Prop :=
| proc_leaf o ins outs dac : g.(kind_of) o = Leaf true ins outs dac -> processes g o
| proc_inside o G : inside g o G -> processes g o -> processes g G
| proc_adc objs il ol o ch G : g.(kind_of) G = Graph objs il ol -> In o il -> g.(kind_of) o = Inlet (Some ch) -> processes g G.

(** ** The signals of a patch *)
Section Dataflow.
Context {A : Type} (g : patch) (f : nat -> list A -> nat -> A) (zero : A) (inp : nat -> A).

(** The one signal connection of inlet [i] of [o] *)
Definition fed_by (o i : nat) (c : conn) : Prop :=
  In c g.(conns) /\ c.(c_sig) = true /\ c.(c_to) = o /\ c.(c_in) = i.

Inductive outlet_value : nat -> nat -> A -> Prop :=
| value_leaf o j sg ins outs (x : nat -> A) :
    g.(kind_of) o = Leaf sg ins outs None ->
    (forall i, In i (sig_lets ins) -> inlet_value o i (x i)) ->
    outlet_value o j (f o (map x (sig_lets ins)) j)
| value_adc o ch : g.(kind_of) o = Inlet (Some ch) -> outlet_value o 0 (inp ch)
| value_inlet o G i objs il ol v :
    g.(kind_of) o = Inlet None ->
    g.(kind_of) G = Graph objs il ol -> nth_error il i = Some o ->
    inlet_value G i v ->
    outlet_value o 0 v
| value_outlet G j objs il ol o v :
    g.(kind_of) G = Graph objs il ol -> nth_error ol j = Some o ->
    inlet_value o 0 v ->
    outlet_value G j v
with inlet_value : nat -> nat -> A -> Prop :=
| value_connected o i c v : fed_by o i c -> outlet_value c.(c_from) c.(c_out) v -> inlet_value o i v
| value_open o i : (forall c, ~ fed_by o i c) -> inlet_value o i zero.

(** The dac~ adders of channel [ch], in the order [l], add their input to what the channel holds. *)
Definition is_dac (ch o : nat) : bool :=
  match g.(kind_of) o with Leaf _ _ _ (Some k) => Nat.eqb k ch | _ => false end.
Inductive mixed (ch : nat) : list nat -> A -> A -> Prop :=
| mixed_nil a : mixed ch [] a a
| mixed_skip o l a b : is_dac ch o = false -> mixed ch l a b -> mixed ch (o :: l) a b
| mixed_add o l v a b : is_dac ch o = true -> inlet_value o 0 v -> mixed ch l (f o [v; a] 0) b -> mixed ch (o :: l) a b.
End Dataflow.

(** ** Well-formed reduced patches without feedback *)
Record reduced (g : patch) (root depth : nat) (level rank : nat -> nat) : Prop := {
  (** nesting is a tree, no deeper than [depth] *)
  wf_root : (exists objs il ol, g.(kind_of) root = Graph objs il ol) /\ level root = 0 /\ 0 < depth;
  wf_parent : forall o G G', inside g o G -> inside g o G' -> G = G';
  wf_level : forall o G, inside g o G -> level o = S (level G) /\ level o < depth;
  (** the inlet and outlet objects of a subgraph *)
  wf_inlets : forall G objs il ol, g.(kind_of) G = Graph objs il ol ->
    NoDup il /\ NoDup ol /\
    (forall o, In o il <-> In o objs /\ exists a, g.(kind_of) o = Inlet a) /\
    (forall o, In o ol <-> In o objs /\ g.(kind_of) o = Outlet);
  (** connections run inside one graph, between existing inlets and outlets *)
  wf_conn : forall c, In c g.(conns) ->
    (exists G, inside g c.(c_from) G /\ inside g c.(c_to) G) /\
    c.(c_in) < num_inlets g c.(c_to) /\ c.(c_out) < num_outlets g c.(c_from);
  (** no feedback, neither through signals nor through messages *)
  wf_rank : forall c, In c g.(conns) -> rank c.(c_from) < rank c.(c_to);
  (** signal connections leave signal outlets of objects that are processed *)
  wf_source : forall c, In c g.(conns) -> c.(c_sig) = true ->
    match g.(kind_of) c.(c_from) with
    | Leaf sg ins outs dac => sg = true /\ dac = None /\ exists t, nth_error outs c.(c_out) = Some (Some t)
    | Inlet _ => True
    | Outlet => False
    | Graph _ _ _ => processes g c.(c_from)
    end;
  (** adc~ inlets are not inlets of a subgraph *)
  wf_adc : forall c objs il ol o ch, In c g.(conns) -> c.(c_sig) = true ->
    g.(kind_of) c.(c_to) = Graph objs il ol -> nth_error il c.(c_in) = Some o -> g.(kind_of) o <> Inlet (Some ch);
  (** the adders made for dac~ *)
  wf_dac : forall o sg ins outs ch, g.(kind_of) o = Leaf sg ins outs (Some ch) ->
    sg = true /\ ins = [Some false; Some false] /\ outs = [Some false] /\ at_inlet g o 1 = [] }.
(** With at most one signal connection at an inlet (after cascade_expansion) *)
Record well_formed (g : patch) (root depth : nat) (level rank : nat -> nat) : Prop := {
  wf_reduced :> reduced g root depth level rank;
  wf_single : forall o i, length (signals (at_inlet g o i)) <= 1 }.

(** ** Which object produces the signal at an outlet, through subgraph inlets and outlets *)
Inductive origin (g : patch) : nat -> nat -> nat -> Prop :=
| origin_leaf o j sg ins outs dac : g.(kind_of) o = Leaf sg ins outs dac -> origin g o j o
| origin_inlet o G i objs il ol c p :
    g.(kind_of) G = Graph objs il ol -> nth_error il i = Some o -> fed_by g G i c ->
    origin g c.(c_from) c.(c_out) p -> origin g o 0 p
| origin_outlet G j objs il ol o c p :
    g.(kind_of) G = Graph objs il ol -> nth_error ol j = Some o -> fed_by g o 0 c ->
    origin g c.(c_from) c.(c_out) p -> origin g G j p.
(** Signal object [p] feeds signal object [o]. *)
Definition feeds (g : patch) (p o : nat) : Prop :=
  exists i c, fed_by g o i c /\ origin g c.(c_from) c.(c_out) p.
