(** Model of the name hashes.
    - run time: hv_string_to_hash, /repo/hvcc/generators/ir2c/static/HvUtils.c:19-54
    - compile time: get_hash, /repo/hvcc/core/hv2ir/HeavyLangObject.py:378-419 and
      /repo/hvcc/generators/ir2c/HeavyObject.py:163-205 (identical code).

    A C string is the list of its bytes (1..255) before the terminating NUL; a Python string is the
    list of its code points.  `char` is signed, int is 32 bit, the machine is little endian;
    `str[2] << 16` of a negative char is taken as two's complement wrap-around. *)
From Verif Require Export Base.

Definition MUR : Z := 1540483477.   (* 0x5bd1e995 *)
Definition BANG_HASH : Z := 4294967295.

Definition c_char (b : Z) : Z := if b <? 128 then b else b - 256.
Definition load_le32 (a b c d : Z) : Z := a + 256 * b + 65536 * c + 16777216 * d.

(** The while loop, HvUtils.c:31-43; returns the unread bytes and x. *)
Fixpoint c_loop (str : list Z) (x : Z) : list Z * Z :=
  match str with
  | a :: b :: c :: d :: rest =>
      let k := load_le32 a b c d in
      let k := u32 (k * MUR) in
      let k := Z.lxor k (Z.shiftr k 24) in
      let k := u32 (k * MUR) in
      let x := u32 (x * MUR) in
      let x := Z.lxor x k in
      c_loop rest x
  | _ => (str, x)
  end.

(** HvUtils.c:19-54 (str <> NULL). *)
Definition hv_string_to_hash (str : list Z) : Z :=
  let len := u32 (zlen str) in
  let '(str, x) := c_loop str len in
  let x := match str with
           | [a] => u32 (Z.lxor x (u32 (c_char a)) * MUR)
           | [a; b] => u32 (Z.lxor (Z.lxor x (u32 (Z.shiftl (c_char b) 8))) (u32 (c_char a)) * MUR)
           | [a; b; c] => u32 (Z.lxor (Z.lxor (Z.lxor x (u32 (Z.shiftl (c_char c) 16)))
                                        (u32 (Z.shiftl (c_char b) 8))) (u32 (c_char a)) * MUR)
           | _ => x
           end in
  let x := Z.lxor x (Z.shiftr x 13) in
  let x := u32 (x * MUR) in
  Z.lxor x (Z.shiftr x 15).

(** bytes(x, "utf-8") for one code point (surrogates, which raise an exception, give None). *)
Definition utf8 (c : Z) : option (list Z) :=
  if c <? 128 then Some [c]
  else if c <? 2048 then Some [192 + c / 64; 128 + c mod 64]
  else if c <? 65536 then
    if (55296 <=? c) && (c <=? 57343) then None
    else Some [224 + c / 4096; 128 + (c / 64) mod 64; 128 + c mod 64]
  else Some [240 + c / 262144; 128 + (c / 4096) mod 64; 128 + (c / 64) mod 64; 128 + c mod 64].
Fixpoint utf8s (x : list Z) : option (list Z) :=
  match x with
  | [] => Some []
  | c :: x' => match utf8 c, utf8s x' with Some a, Some b => Some (a ++ b) | _, _ => None end
  end.

(** x[i:j] *)
Definition slice {A} (x : list A) (i j : nat) : list A := firstn (j - i) (skipn i x).
(** unpack("@I", b): needs exactly four bytes. *)
Definition unpack_I (b : list Z) : option Z :=
  match b with [a; b; c; d] => Some (load_le32 a b c d) | _ => None end.
Definition mask32 (z : Z) : Z := Z.land z 4294967295.

(** The while loop, HeavyLangObject.py:395-402.  None: exception raised. *)
Fixpoint py_loop (fuel : nat) (x : list Z) (i : nat) (h : Z) : option (nat * Z) :=
  if Z.of_nat i <? Z.land (zlen x) (Z.lnot 3) then
    match fuel with
    | O => None
    | S fuel' =>
      match utf8s (slice x i (i + 4)) with
      | None => None
      | Some bs => match unpack_I bs with
        | None => None
        | Some k =>
          let k := mask32 (k * MUR) in
          let k := Z.lxor k (Z.shiftr k 24) in
          let k := mask32 (k * MUR) in
          let h := mask32 (h * MUR) in
          let h := Z.lxor h k in
          py_loop fuel' x (i + 4) h
        end
      end
    end
  else Some (i, h).

Definition is_bang (x : list Z) : bool :=
  match x with [98; 97; 110; 103] => true | _ => false end.

(** get_hash of a str, HeavyLangObject.py:384-417. *)
Definition py_get_hash (x : list Z) : option Z :=
  if is_bang x then Some BANG_HASH else
  match py_loop (length x) x 0 (zlen x) with
  | None => None
  | Some (i, h) =>
    let n := Z.land (zlen x) 3 in
    let x := slice x i (i + Z.to_nat n) in
    let h := if 3 <=? n then Z.lxor h (mask32 (Z.shiftl (nth 2 x 0) 16)) else h in
    let h := if 2 <=? n then Z.lxor h (mask32 (Z.shiftl (nth 1 x 0) 8)) else h in
    let h := if 1 <=? n then mask32 (Z.lxor h (nth 0 x 0) * MUR) else h in
    let h := Z.lxor h (Z.shiftr h 13) in
    let h := mask32 (h * MUR) in
    Some (Z.lxor h (Z.shiftr h 15))
  end.
