(** The print hooks of the generated plugins: c2dpf/templates/HeavyDPF.cpp:70-79, c2daisy/templates/HeavyDaisy.cpp:509-520 and
    c2owl/templates/HeavyOwl.hpp:60-68.  The label and the message are C strings: lists of bytes other than 0.  [None] in a buffer is a
    byte that was not written: reading it is undefined. *)
From Verif Require Export Base.
From Coq Require Import List.
Import ListNotations.
Open Scope Z_scope.
Notation buffer := (list (option Z)).
(** char buf[64] *)
Definition fresh : buffer := repeat None 64.
(** Bytes written from [at_] on; leaving the buffer is undefined. *)
Definition put (b : buffer) (at_ : nat) (l : list Z) : outcome buffer :=
  guard! Nat.leb (at_ + length l) (length b) in Ok (firstn at_ b ++ map Some l ++ skipn (at_ + length l) b).
(** strncpy/stpncpy: [n] bytes, filled up with zeros; second component: how far stpncpy goes. *)
Definition str_n (s : list Z) (n : nat) : list Z * nat := (firstn n s ++ repeat 0 (n - length s), Nat.min n (length s)).
(** What is read as a string from the buffer on. *)
Fixpoint c_string (b : buffer) : outcome (list Z) :=
  match b with
  | Some c :: r => if c =? 0 then Ok [] else let! s := c_string r in Ok (c :: s)
  | _ => UB
  end.
Definition space : list Z := [32].
(** HeavyDPF.cpp:72-78: strncpy and strcpy return their first argument, so [dst] stays [buf].  The result: what printf prints after "> ". *)
Definition dpf_print (label message : list Z) : outcome (list Z) :=
  let len := Nat.min 48 (length label) in                                  (* strnlen *)
  let! b1 := put fresh 0 (fst (str_n label len)) in
  let! b2 := put b1 0 (space ++ [0]) in
  let! b3 := put b2 0 (fst (str_n message (63 - len))) in
  c_string b3.
(** HeavyDaisy.cpp:511-519 and HeavyOwl.hpp:61-67; the result: the string given to the log (FixedCapStr, debugMessage), and the buffer
    itself before it is read. *)
Definition stp_buffer (label message : list Z) : outcome buffer :=
  let len := Nat.min 48 (length label) in
  let! b1 := put fresh 0 (fst (str_n label len)) in
  let d1 := snd (str_n label len) in
  let! b2 := put b1 d1 (space ++ [0]) in
  put b2 (d1 + 1) (fst (str_n message (63 - len))).
Definition stp_print (label message : list Z) : outcome (list Z) := let! b := stp_buffer label message in c_string b.
