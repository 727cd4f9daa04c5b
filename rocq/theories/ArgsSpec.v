(** What a text with argument references means. *)
From Verif Require Import ArgsModel.

(** A text is literals and references. *)
Inductive token := Lit (s : text) | Ref (k : text).
(** How it is written, [mk] being the mark of a reference. *)
Definition written (mk : text) (t : token) : text := match t with Lit s => s | Ref k => mk ++ k end.
Definition render (mk : text) (ts : list token) : text := flat_map (written mk) ts.
(** What it should become when reference [k] has the text [f k]. *)
Definition meaning (f : text -> option text) (t : token) : option text :=
  match t with Lit s => Some s | Ref k => f k end.
Fixpoint substituted (f : text -> option text) (ts : list token) : option text :=
  match ts with
  | [] => Some []
  | t :: ts' => match meaning f t, substituted f ts' with Some a, Some b => Some (a ++ b) | _, _ => None end
  end.
Definition refs (ts : list token) : list text := flat_map (fun t => match t with Ref k => [k] | _ => [] end) ts.

(** Characters. *)
Definition plain (s : text) : Prop := ~ In DOLLAR s.
Definition plain_key (k : text) : Prop := ~ In DOLLAR k /\ ~ In BACKSLASH k.
Definition plain_lits (ts : list token) : Prop := forall s, In (Lit s) ts -> plain s.
(** No name is a proper prefix of another. *)
Definition prefix_free (ks : list text) : Prop := forall a b, In a ks -> In b ks -> prefix a b -> a = b.
(** Value of an argument in a dictionary. *)
Fixpoint arg_of (gargs : list (text * pyval)) (k : text) : option pyval :=
  match gargs with [] => None | (k', v) :: r => if text_eqb k k' then Some v else arg_of r k end.
Definition arg_text (gargs : list (text * pyval)) (k : text) : option text := option_map py_str (arg_of gargs k).

(** Pd: a reference is all the digits after the mark. *)
Fixpoint maximal (ts : list token) : Prop :=
  match ts with
  | [] => True
  | Lit _ :: ts' => maximal ts'
  | Ref k :: ts' => k <> [] /\ forallb is_digit k = true /\
                    match render [BACKSLASH; DOLLAR] ts' with c :: _ => is_digit c = false | [] => True end /\ maximal ts'
  end.

(** The text of $n in an abstraction: its n-th creation argument ($0: the id of the graph), else the
    default declared for it (None when it is required), else "0". *)
Definition pd_value (g : pd_graph) (m : text) : option text :=
  let n := Z.to_nat (int_of m) in
  match nth_error (pg_args g) n with
  | Some v => Some v
  | None => match nth_error (pg_hv g) (n - 1) with
            | Some h => if ha_required h then None else Some (ha_default h)
            | None => Some [48]
            end
  end.

(** An entry of an argument dictionary, before and after. *)
Definition readable (gargs : list (text * pyval)) (v : pyval) : Prop :=
  match v with
  | POther _ _ => True
  | PStr s => exists ts, s = render [DOLLAR] ts /\ plain_lits ts /\ (forall r, In r (refs ts) -> In r (map fst gargs))
  end.
Definition entry_resolved (gargs : list (text * pyval)) (v v' : pyval) : Prop :=
  match v with
  | POther _ _ => v' = v
  | PStr s =>
      (** every reference is replaced by the text of the argument *)
      (forall ts, s = render [DOLLAR] ts -> plain_lits ts -> (forall r, In r (refs ts) -> In r (map fst gargs)) ->
         substituted (arg_text gargs) ts = Some (py_str v')) /\
      (** a lone reference becomes the argument itself, with its type *)
      (forall k a, s = DOLLAR :: k -> plain k -> arg_of gargs k = Some a -> v' = a) /\
      (** a text without references is unchanged *)
      (plain s -> v' = v)
  end.
Definition well_named (gargs : list (text * pyval)) : Prop :=
  NoDup (map fst gargs) /\ prefix_free (map fst gargs) /\ (forall k v, In (k, v) gargs -> plain k /\ plain (py_str v)).
