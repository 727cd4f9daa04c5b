(** What Pd's message objects are supposed to do, without reference to how /repo builds them.  Inputs carry
    the time (in samples) at which they arrive, outputs are (time, outlet, message). *)
From Verif Require Export PatchLibs.
From Coq Require Import Reals.
From Flocq Require Import Core.
Open Scope Z_scope.

Definition out := (Z * nat * msg)%type.
(** A number at the left or right inlet. *)
Inductive number := Left_ (x : f32) | Right_ (x : f32).
Definition number_event (e : Z * number) : event :=
  match e with (t, Left_ x) => In_ t 0 [EF x] | (t, Right_ x) => In_ t 1 [EF x] end.

(** ** moses: numbers below the threshold go left, the others right; the right inlet sets the threshold. *)
Fixpoint moses_spec (k : f32) (l : list (Z * number)) : list out :=
  match l with
  | [] => []
  | (t, Left_ x) :: l' => (t, (if fleb k x then 1 else 0)%nat, [EF x]) :: moses_spec k l'
  | (t, Right_ y) :: l' => moses_spec y l'
  end.

(** ** spigot: messages pass while the last number at the right inlet is not 0. *)
Inductive gate_in := GMsg (m : msg) | GNum (x : f32).
Definition gate_event (e : Z * gate_in) : event :=
  match e with (t, GMsg m) => In_ t 0 m | (t, GNum x) => In_ t 1 [EF x] end.
Fixpoint spigot_spec (k : f32) (l : list (Z * gate_in)) : list out :=
  match l with
  | [] => []
  | (t, GMsg m) :: l' => (if feqb k fzero then [] else [(t, O, m)]) ++ spigot_spec k l'
  | (t, GNum x) :: l' => spigot_spec x l'
  end.

(** ** change: a number passes if it differs from the one before; bang repeats it, "set" replaces it. *)
Inductive change_in := CFloat (x : f32) | CBang | CSet (x : f32).
Definition change_event (e : Z * change_in) : event :=
  match e with
  | (t, CFloat x) => In_ t 0 [EF x]
  | (t, CBang) => In_ t 0 [EB]
  | (t, CSet x) => In_ t 0 [word "set"; EF x]
  end.
Fixpoint change_spec (v : f32) (l : list (Z * change_in)) : list out :=
  match l with
  | [] => []
  | (t, CFloat x) :: l' => if feqb x v then change_spec v l' else (t, O, [EF x]) :: change_spec x l'
  | (t, CBang) :: l' => (t, O, [EF v]) :: change_spec v l'
  | (t, CSet x) :: l' => change_spec x l'
  end.
(** The encoding of [x] is not the hash of one of the words. *)
Definition plain (E : env) (ws : list Z) (x : f32) : Prop := Forall (fun h => float_bits (e_nan E) x <> h) ws.
Definition change_words : list Z := [BANG_HASH; hv_string_to_hash (T "set"); hv_string_to_hash (T "symbol")].

(** ** swap: the number at the left inlet leaves at the right outlet, then the one of the right inlet at the
    left outlet. *)
Inductive swap_in := SLeft (x : f32) | SRight (x : f32) | SBang.
Definition swap_event (e : Z * swap_in) : event :=
  match e with (t, SLeft x) => In_ t 0 [EF x] | (t, SRight x) => In_ t 1 [EF x] | (t, SBang) => In_ t 0 [EB] end.
Fixpoint swap_spec (a b : f32) (l : list (Z * swap_in)) : list out :=
  match l with
  | [] => []
  | (t, SLeft x) :: l' => (t, 1%nat, [EF x]) :: (t, O, [EF b]) :: swap_spec x b l'
  | (t, SRight y) :: l' => swap_spec a y l'
  | (t, SBang) :: l' => (t, 1%nat, [EF a]) :: (t, O, [EF b]) :: swap_spec a b l'
  end.
Definition swap_words : list Z := [BANG_HASH; hv_string_to_hash (T "symbol")].

(** ** int: the number without its fraction; bang repeats. *)
Fixpoint int_spec (v : f32) (l : list (Z * swap_in)) : list out :=
  match l with
  | [] => []
  | (t, SLeft x) :: l' => (t, O, [EF (Bnearbyint mode_ZR x)]) :: int_spec x l'
  | (t, SRight y) :: l' => int_spec y l'
  | (t, SBang) :: l' => (t, O, [EF (Bnearbyint mode_ZR v)]) :: int_spec v l'
  end.

(** ** clip *)
Inductive clip_in := PIn (x : f32) | PLow (x : f32) | PHigh (x : f32).
Definition clip_event (e : Z * clip_in) : event :=
  match e with (t, PIn x) => In_ t 0 [EF x] | (t, PLow x) => In_ t 1 [EF x] | (t, PHigh x) => In_ t 2 [EF x] end.
Fixpoint clip_spec (lo hi : f32) (l : list (Z * clip_in)) : list out :=
  match l with
  | [] => []
  | (t, PIn x) :: l' => (t, O, [EF (if fltb x lo then lo else if fltb hi x then hi else x)]) :: clip_spec lo hi l'
  | (t, PLow x) :: l' => clip_spec x hi l'
  | (t, PHigh x) :: l' => clip_spec lo x l'
  end.
Fixpoint clip_ok (lo hi : f32) (l : list (Z * clip_in)) : Prop :=
  (is_finite lo = true /\ is_finite hi = true /\ fleb lo hi = true) /\
  match l with
  | [] => True
  | (t, PIn x) :: l' => is_finite x = true /\ clip_ok lo hi l'
  | (t, PLow x) :: l' => clip_ok x hi l'
  | (t, PHigh x) :: l' => clip_ok lo x l'
  end.

(** ** tgl: bang switches between 0 and 1; a number is passed on and is the new state. *)
Inductive tgl_in := TBang | TNum (x : f32).
Definition tgl_event (e : Z * tgl_in) : event :=
  match e with (t, TBang) => In_ t 0 [EB] | (t, TNum x) => In_ t 0 [EF x] end.
Fixpoint tgl_spec (on : bool) (l : list (Z * tgl_in)) : list out :=
  match l with
  | [] => []
  | (t, TBang) :: l' => (t, O, [EF (if on then fzero else fone)]) :: tgl_spec (negb on) l'
  | (t, TNum x) :: l' => (t, O, [EF x]) :: tgl_spec (negb (feqb x fzero)) l'
  end.

(** ** MIDI input.  Channels are numbered from 1 in Pd, from 0 in the message; argument 0: every channel. *)
Definition on_channel (k c : Z) : bool := (k =? 0) || (c + 1 =? k).
Definition note_event (e : Z * (f32 * f32 * Z)) : event :=
  match e with (t, (p, v, c)) => In_ t 0 [EF p; EF v; whole c] end.
(** The channel of every note; velocity and pitch of those on channel [k]. *)
Fixpoint notein_spec (k : Z) (l : list (Z * (f32 * f32 * Z))) : list out :=
  match l with
  | [] => []
  | (t, (p, v, c)) :: l' =>
      (t, 2%nat, [whole (c + 1)]) ::
      (if on_channel k c then [(t, 1%nat, [EF v]); (t, O, [EF p])] else []) ++ notein_spec k l'
  end.
(** Pitch bend, channel pressure, program change: a value and the channel. *)
Definition value_event (e : Z * (f32 * Z)) : event := match e with (t, (x, c)) => In_ t 0 [EF x; whole c] end.
Fixpoint valuein_spec (add1 : bool) (k : Z) (l : list (Z * (f32 * Z))) : list out :=
  match l with
  | [] => []
  | (t, (x, c)) :: l' =>
      (if on_channel k c then [(t, 1%nat, [whole (c + 1)]); (t, O, [EF (if add1 then fadd x (of_int 1) else x)])] else [])
        ++ valuein_spec add1 k l'
  end.
(** Controllers: value, controller, channel.  No argument: all of them with controller and channel; a
    controller: the value and the channel; controller and channel: the value. *)
Definition ctl_event (e : Z * (f32 * Z * Z)) : event :=
  match e with (t, (x, n, c)) => In_ t 0 [EF x; whole n; whole c] end.
Fixpoint ctlin_spec (n0 c0 : Z) (l : list (Z * (f32 * Z * Z))) : list out :=
  match l with
  | [] => []
  | (t, (x, n, c)) :: l' =>
      (if n0 =? 0 then [(t, 2%nat, [whole (c + 1)]); (t, 1%nat, [whole n]); (t, O, [EF x])]
       else if negb (n =? n0) then []
       else if c0 =? 0 then [(t, 1%nat, [whole (c + 1)]); (t, O, [EF x])]
       else if c + 1 =? c0 then [(t, O, [EF x])]
       else [])
        ++ ctlin_spec n0 c0 l'
  end.
