(** What Pd's number boxes and conversions are supposed to do. *)
From Verif Require Export PatchLibs2 PatchSpec.
From Coq Require Import Reals.
From Flocq Require Import Core.
Open Scope Z_scope.
(** The real number that a float is. *)
Definition val (x : f32) : R := B2R x.

(** ** float, and everything that is only a number on the screen: a number passes and is kept, the right inlet sets the number,
    bang repeats it. *)
Fixpoint float_spec (v : f32) (l : list (Z * swap_in)) : list out :=
  match l with
  | [] => []
  | (t, SLeft x) :: l' => (t, O, [EF x]) :: float_spec x l'
  | (t, SRight y) :: l' => float_spec y l'
  | (t, SBang) :: l' => (t, O, [EF v]) :: float_spec v l'
  end.
(** Without a right inlet. *)
Definition slider_event (e : Z * tgl_in) : event := tgl_event e.
Fixpoint slider_spec (v : f32) (l : list (Z * tgl_in)) : list out :=
  match l with
  | [] => []
  | (t, TNum x) :: l' => (t, O, [EF x]) :: slider_spec x l'
  | (t, TBang) :: l' => (t, O, [EF v]) :: slider_spec v l'
  end.

(** ** Conversions: [f] of every number; other messages are ignored. *)
Inductive conv_in := VNum (x : f32) | VOther (m : msg).
Definition conv_event (e : Z * conv_in) : event :=
  match e with (t, VNum x) => In_ t 0 [EF x] | (t, VOther m) => In_ t 0 m end.
Definition conv_ok (l : list (Z * conv_in)) : Prop :=
  Forall (fun e => match snd e with VOther (EF _ :: _) => False | _ => True end) l.
Fixpoint conv_spec (f : f32 -> f32) (l : list (Z * conv_in)) : list out :=
  match l with
  | [] => []
  | (t, VNum x) :: l' => (t, O, [EF (f x)]) :: conv_spec f l'
  | (t, VOther _) :: l' => conv_spec f l'
  end.
(** The patch [p] sends [f x] for every number [x], and nothing else. *)
Definition converts (E : env) (p : patch) (f : f32 -> f32) : Prop :=
  forall l, conv_ok l -> sends E p (map conv_event l) (conv_spec f l).
(** The C library's pow and logarithm, to within about a millionth. *)
Definition pow_accurate (E : env) : Prop := forall x y, is_finite x = true -> is_finite y = true -> (0 < val x)%R ->
  (bpow radix2 (-120) <= Rpower (val x) (val y) <= bpow radix2 120)%R ->
  is_finite (e_pow E x y) = true /\ (Rabs (val (e_pow E x y) - Rpower (val x) (val y)) <= / 1000000 * Rpower (val x) (val y))%R.
Definition log_accurate (E : env) : Prop := forall x, is_finite x = true -> (0 < val x)%R ->
  is_finite (e_lib E LOG x) = true /\ (Rabs (val (e_lib E LOG x) - ln (val x)) <= / 1000000 * (1 + Rabs (ln (val x))))%R.

(** ** div: the quotient without its fraction. *)
Fixpoint div_spec (k : Z) (l : list (Z * (bool * Z))) : list out :=
  match l with
  | [] => []
  | (t, (true, a)) :: l' => (t, O, [whole (if k =? 0 then 0 else Z.quot a k)]) :: div_spec k l'
  | (t, (false, b)) :: l' => div_spec b l'
  end.
(** A whole number at the left ([true]) or right inlet. *)
Definition div_event (e : Z * (bool * Z)) : event :=
  match e with (t, (b, a)) => In_ t (if b then 0 else 1)%nat [whole a] end.

(** ** midiin, midirealtimein: the byte and the port. *)
Fixpoint midiin_spec (l : list (Z * (f32 * Z))) : list out :=
  match l with [] => [] | (t, (x, c)) :: l' => (t, 1%nat, [whole (c + 1)]) :: (t, O, [EF x]) :: midiin_spec l' end.
Fixpoint realtimein_spec (l : list (Z * (f32 * Z))) : list out :=
  match l with [] => [] | (t, (x, c)) :: l' => (t, 1%nat, [whole c]) :: (t, O, [EF x]) :: realtimein_spec l' end.

(** ** random: every bang a whole number from 0 up to the bound. *)
Inductive random_in := RBang | RSeed (n : Z) | RBound (n : Z).
Definition random_event (e : Z * random_in) : event :=
  match e with (t, RBang) => In_ t 0 [EB] | (t, RSeed n) => In_ t 0 [word "seed"; whole n] | (t, RBound n) => In_ t 1 [whole n] end.
(** [out] answers the bangs of [l]: at the same times, with numbers below the bound in force. *)
Fixpoint random_answers (bound : Z) (l : list (Z * random_in)) (o : list out) : Prop :=
  match l with
  | [] => o = []
  | (t, RBang) :: l' => exists n o', o = (t, O, [whole n]) :: o' /\ 0 <= n < bound /\ random_answers bound l' o'
  | (t, RSeed _) :: l' => random_answers bound l' o
  | (t, RBound n) :: l' => random_answers n l' o
  end.
Definition random_ok (l : list (Z * random_in)) : Prop :=
  Forall (fun e => match snd e with RBang => True | RSeed n => 0 <= n < 2 ^ 24 | RBound n => 1 <= n <= 2 ^ 24 end) l.
