(** Model of /repo/hvcc/generators/ir2c/static/HvControlRandom.c. *)
From Verif Require Export Float32.

(** cRandom_init, HvControlRandom.c:22-25: [seed] is a C int, the state an unsigned 32 bit word. *)
Definition cRandom_init (seed : Z) : Z := if seed =? 0 then 1 else u32 seed.

(** Line 32; the product is 64 bit and cannot overflow: 2^32 * 279470273 < 2^64. *)
Definition random_next (state : Z) : Z := (state * 279470273) mod 4294967291.
(** Line 33: the literal 0.00000011920929f is the float 2^-23 (nearest binary32). *)
Definition random_value (state : Z) : f32 := fmul (of_int (Z.shiftr state 9)) (fdyadic 1 (-23)).

Inductive random_op :=
| Bang              (* inlet 0 *)
| Seed (f : f32)    (* inlet 1, a float *)
| SeedOther.        (* inlet 1, not a float *)

(** cRandom_onMessage, HvControlRandom.c:27-46: new state and the values sent to the outlet. *)
Definition cRandom_onMessage (state : Z) (o : random_op) : outcome (Z * list f32) :=
  match o with
  | Bang => let s := random_next state in Ok (s, [random_value s])
  | Seed f => let! s := to_u32 f in Ok (s, [])
  | SeedOther => Ok (state, [])
  end.
Fixpoint random_run (state : Z) (ops : list random_op) : outcome (Z * list f32) :=
  match ops with
  | [] => Ok (state, [])
  | o :: ops' => let! (s, out) := cRandom_onMessage state o in
                 let! (s', out') := random_run s ops' in Ok (s', out ++ out')
  end.
