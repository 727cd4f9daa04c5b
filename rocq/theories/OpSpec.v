(** What a patch with operators means: the equations its signals satisfy. *)
From Verif Require Import RewriteModel OpModel.
From Coq Require Import Permutation.

(** [sums add l v]: [v] is the sum of all the values of [l], each once, in some order and grouping. *)
Inductive sums {A} (add : A -> A -> A) : list A -> A -> Prop :=
| sums_one v : sums add [v] v
| sums_add l1 l2 l a b : Permutation l (l1 ++ l2) -> sums add l1 a -> sums add l2 b -> sums add l (add a b).

Section Meaning.
Context {A K : Type} (op : bop -> A -> A -> A) (neg : A -> A) (zero : A) (kzero : K) (cst : K -> A)
        (inp : nat -> A) (other : nat -> list A -> nat -> A).
(** The floats sent so far by the outlets (object, outlet) of control objects, in order. *)
Variable trace : list (nat * nat * A).
Variable l : lang K.
Variable V : nat -> nat -> A.

(** The last float sent to inlet [i] of [o]; [init] if there is none. *)
Definition held (o i : nat) (init : A) : A :=
  fold_left (fun v e => if existsb (fun c => negb c.(c_sig) && Nat.eqb c.(c_from) (fst (fst e)) && Nat.eqb c.(c_out) (snd (fst e)))
                                   (at_inlet (lp l) o i)
                        then snd e else v) trace init.
(** The signal at inlet [i] of [o]: the sum of the connected signals, or [open] if there is none. *)
Definition arriving (o i : nat) : list A := map (fun c => V c.(c_from) c.(c_out)) (signals (at_inlet (lp l) o i)).
Definition takes (o i : nat) (open x : A) : Prop := match arriving o i with [] => x = open | vs => sums (op OAdd) vs x end.
(** What the objects of the IR compute. *)
Definition ir_value (o : nat) (xs : list A) (j : nat) : A :=
  match lt l o, xs with
  | LIr (IBin b), [x; y] => op b x y
  | LIr INeg, [x] => neg x
  | LIr (IConst k), _ => cst k
  | LIr (IRead y), _ => match lt l y with LIr (IVar k) => held y 0 (cst k) | _ => zero end
  | _, _ => other o xs j
  end.
Record meaning : Prop := {
  (** an operator combines its left input (signals, else the last float, at first 0) with its right input
      (signals, else the last float, at first its argument) *)
  mn_bin : forall o b args, lt l o = LBin b args ->
    exists x y, takes o 0 (held o 0 zero) x /\ takes o 1 (held o 1 (cst (k_of kzero args))) y /\ V o 0 = op b x y;
  (** a var outputs the last float, at first its argument *)
  mn_var : forall o k, lt l o = LVar k -> V o 0 = held o 0 (cst k);
  (** other objects; adc~; inlets and outlets of subpatches *)
  mn_ir : forall o t sg ins outs, lt l o = LIr t -> (lp l).(kind_of) o = Leaf sg ins outs None ->
    exists xs, Forall2 (fun i x => takes o i zero x) (sig_lets ins) xs /\ forall j, V o j = ir_value o xs j;
  mn_adc : forall o ch, (lp l).(kind_of) o = Inlet (Some ch) -> V o 0 = inp ch;
  mn_inlet : forall G objs il ol i o, (lp l).(kind_of) G = Graph objs il ol -> nth_error il i = Some o ->
    (lp l).(kind_of) o = Inlet None -> takes G i zero (V o 0);
  mn_outlet : forall G objs il ol j o, (lp l).(kind_of) G = Graph objs il ol -> nth_error ol j = Some o ->
    takes o 0 zero (V G j) }.
End Meaning.

(** The patch as pd2hv hands it over: numbers from [ln] on are free; operators and vars have their lets,
    are no inlets or outlets of subpatches; what leaves them is a signal, a var takes no signal; there is
    no signal feedback. *)
Definition is_lang {K} (t : lobj K) : Prop := match t with LBin _ _ | LVar _ => True | LIr _ => False end.
Record lang_ok {K} (l : lang K) : Prop := {
  lo_free : forall x, ln l <= x -> (lp l).(kind_of) x = Outlet /\ lt l x = LIr IOther;
  lo_conn : forall c, In c (lp l).(conns) -> c.(c_from) < ln l /\ c.(c_to) < ln l;
  lo_lets : forall G objs il ol o, (lp l).(kind_of) G = Graph objs il ol -> In o (il ++ ol) -> o < ln l /\ ~ is_lang (lt l o);
  lo_bin : forall o b a, lt l o = LBin b a -> (lp l).(kind_of) o = Leaf true [Some false; Some false] [Some false] None;
  lo_var : forall o k, lt l o = LVar k -> (lp l).(kind_of) o = Leaf true [None] [Some false] None;
  lo_read : forall o y, lt l o = LIr (IRead y) -> exists k, lt l y = LIr (IVar k);
  lo_from : forall c, In c (lp l).(conns) -> is_lang (lt l c.(c_from)) -> c.(c_out) = 0 /\ c.(c_sig) = true;
  lo_to_bin : forall c b a, In c (lp l).(conns) -> lt l c.(c_to) = LBin b a -> c.(c_in) <= 1;
  lo_to_var : forall c k, In c (lp l).(conns) -> lt l c.(c_to) = LVar k -> c.(c_in) = 0 /\ c.(c_sig) = false;
  lo_rank : exists rank : nat -> nat, forall c, In c (lp l).(conns) -> c.(c_sig) = true -> rank c.(c_from) < rank c.(c_to) }.

(** Constants behave: adding or subtracting 0, multiplying or dividing by 1, multiplying by -1. *)
Record laws {A K} (op : bop -> A -> A -> A) (neg : A -> A) (zero : A) (kzero : K) (cst : K -> A) (is_zero is_one is_minus_one : K -> bool) : Prop := {
  la_zero : cst kzero = zero;
  la_add : forall k x, is_zero k = true -> op OAdd x (cst k) = x;
  la_sub : forall k x, is_zero k = true -> op OSub x (cst k) = x;
  la_mul : forall k x, is_one k = true -> op OMul x (cst k) = x;
  la_div : forall k x, is_one k = true -> op ODiv x (cst k) = x;
  la_neg : forall k x, is_minus_one k = true -> op OMul x (cst k) = neg x }.

(** An operator in Pd: no inlet gets signals and messages at once; with an argument the right inlet takes
    no signal. *)
Definition pd_ok {K} (l : lang K) : Prop :=
  forall o b a, lt l o = LBin b a ->
    (forall c c', In c (at_inlet (lp l) o 0) -> In c' (at_inlet (lp l) o 0) -> c.(c_sig) = c'.(c_sig)) /\
    (forall c c', In c (at_inlet (lp l) o 1) -> In c' (at_inlet (lp l) o 1) -> c.(c_sig) = c'.(c_sig)) /\
    (a <> None -> forall c, In c (at_inlet (lp l) o 1) -> c.(c_sig) = false).
(** An operator in HeavyLang: no inlet gets signals and messages at once; some signal arrives, at the left
    inlet or at the right one (then messages arrive at the left). *)
Definition hv_ok {K} (l : lang K) : Prop :=
  forall o b a, lt l o = LBin b a ->
    (forall c c', In c (at_inlet (lp l) o 0) -> In c' (at_inlet (lp l) o 0) -> c.(c_sig) = c'.(c_sig)) /\
    (forall c c', In c (at_inlet (lp l) o 1) -> In c' (at_inlet (lp l) o 1) -> c.(c_sig) = c'.(c_sig)) /\
    ((exists c, In c (at_inlet (lp l) o 0) /\ c.(c_sig) = true) \/
     (exists c, In c (at_inlet (lp l) o 0) /\ c.(c_sig) = false) /\ exists c, In c (at_inlet (lp l) o 1) /\ c.(c_sig) = true).
(** No [*~] multiplies by a constant 0. *)
Definition no_zero_factor {K} (kzero : K) (is_zero : K -> bool) (l : lang K) : Prop :=
  forall o a, lt l o = LBin OMul a -> is_zero (k_of kzero a) = true -> at_inlet (lp l) o 1 <> [].
