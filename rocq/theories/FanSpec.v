(** What trigger, pack, unpack, route and select of any size are supposed to do. *)
From Verif Require Export FanModel PatchSpec.
Open Scope Z_scope.

(** A message at the left inlet. *)
Definition msg_event (e : Z * msg) : event := match e with (t, m) => In_ t 0 m end.

(** ** trigger: the outlets from right to left. *)
Definition cast_of (c : cast) (m : msg) : list msg :=
  match c, m with CA, _ => [m] | CB, _ => [[EB]] | CF, EF x :: _ => [[EF x]] | CF, _ => [] end.
Definition trigger_one (cs : list cast) (e : Z * msg) : list out :=
  flat_map (fun i => map (fun m => (fst e, i, m)) (cast_of (nth i cs CA) (snd e))) (rev (seq 0 (List.length cs))).
Definition trigger_spec (cs : list cast) (l : list (Z * msg)) : list out := flat_map (trigger_one cs) l.

(** ** unpack: the elements of the message from the last to the first; the rest of the outlets is silent. *)
Definition unpack_one (n : nat) (e : Z * msg) : list out :=
  flat_map (fun i => match nth_error (snd e) i with Some x => [(fst e, i, [x])] | None => [] end) (rev (seq 0 n)).
Definition unpack_spec (n : nat) (l : list (Z * msg)) : list out := flat_map (unpack_one n) l.

(** ** pack: a number at an inlet is stored; the left inlet stores all numbers of a list and sends. *)
Inductive pack_in := KNums (l : list f32) | KBang | KNum (i : nat) (x : f32).
Definition pack_event (e : Z * pack_in) : event :=
  match e with (t, KNums l) => In_ t 0 (map EF l) | (t, KBang) => In_ t 0 [EB] | (t, KNum i x) => In_ t (S i) [EF x] end.
(** The values of [l] in the first places. *)
Fixpoint onto (l vals : list f32) : list f32 :=
  match l, vals with x :: l', _ :: v' => x :: onto l' v' | _, _ => vals end.
(** [x] in place [i]. *)
Definition at_place (vals : list f32) (i : nat) (x : f32) : list f32 := firstn i vals ++ x :: skipn (S i) vals.
Fixpoint pack_spec (vals : list f32) (l : list (Z * pack_in)) : list out :=
  match l with
  | [] => []
  | (t, KNums xs) :: l' => (t, O, map EF (onto xs vals)) :: pack_spec (onto xs vals) l'
  | (t, KBang) :: l' => (t, O, map EF vals) :: pack_spec vals l'
  | (t, KNum i x) :: l' => pack_spec (at_place vals (S i) x) l'
  end.
Definition pack_ok (n : nat) (l : list (Z * pack_in)) : Prop :=
  Forall (fun e => match snd e with KNums xs => True | KBang => True | KNum i _ => (S i < n)%nat end) l.

(** ** route and select *)
Definition text_eqb (s s' : list Z) : bool := if list_eq_dec Z.eq_dec s s' then true else false.
(** An argument fits a number or word; "bang" fits bang. *)
Definition matches (c : label) (e : elem) : bool :=
  match c, e with
  | LN y, EF x => feqb x y
  | LS s, ES s' => text_eqb s s'
  | LS s, EB => text_eqb s (T "bang")
  | _, _ => false
  end.
(** What decides: the first element; the second after the word "symbol". *)
Definition subject (m : msg) : elem :=
  match m with
  | ES s :: e :: _ => if text_eqb s (T "symbol") then e else ES s
  | e :: _ => e
  | [] => EB
  end.
Fixpoint first_match (cs : list label) (e : elem) (k : nat) : option nat :=
  match cs with [] => None | c :: cs' => if matches c e then Some k else first_match cs' e (S k) end.
Definition route_one (cs : list label) (e : Z * msg) : out :=
  match e with (t, m) =>
    match first_match cs (subject m) 0 with
    | Some k => (t, k, match tl m with [] => [EB] | r => r end)
    | None => (t, List.length cs, m)
    end end.
Definition select_one (cs : list label) (e : Z * msg) : out :=
  match e with (t, m) =>
    match first_match cs (subject m) 0 with
    | Some k => (t, k, [EB])
    | None => (t, List.length cs, m)
    end end.
(** Numbers and words that are compared by their codes: hv_stringToHash for words, the encoding for numbers. *)
Definition plain_number (x : f32) : Prop := is_nan x = false /\ x <> B754_zero true.
Definition plain_text (s : list Z) : Prop := Forall (fun c => 0 < c < 128) s /\ zlen s < 2 ^ 32.
Definition plain_elem (e : elem) : Prop := match e with EB => True | EF x => plain_number x | ES s => plain_text s /\ s <> T "bang" end.
Definition plain_label (c : label) : Prop := match c with LN x => plain_number x | LS s => plain_text s end.
Definition code (E : env) (e : elem) : Z :=
  match e with EB => 4294967295 | EF x => float_bits (e_nan E) x | ES s => hv_string_to_hash s end.
Definition label_code (E : env) (c : label) : Z :=
  match c with LN x => float_bits (e_nan E) x | LS s => if text_eqb s (T "bang") then 4294967295 else hv_string_to_hash s end.
(** The codes of the message and the arguments agree only where these do. *)
Definition no_collision (E : env) (cs : list label) (m : msg) : Prop :=
  Forall (fun c => matches c (subject m) = false -> label_code E c <> code E (subject m)) cs /\
  (forall e r, m = e :: r -> e <> word "symbol" -> code E e <> code E (word "symbol")).
Definition route_ok (E : env) (cs : list label) (m : msg) : Prop :=
  m <> [] /\ m <> [word "symbol"] /\ plain_elem (subject m) /\ no_collision E cs m.
