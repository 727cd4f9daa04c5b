(** Model of messages: /repo/hvcc/generators/ir2c/static/HvMessage.c and HvMessage.h.

    Memory is a list of bytes, an address is an index, NULL is address 0.  A message under
    construction is a record (its fields live on the stack or in an object): timestamp,
    numElements, numBytes (u16) and one slot per allocated Element; a slot is [None] until it is
    set (reading it is undefined).  [enc_core] is the byte layout of the struct (64-bit ABI:
    4 timestamp, 2 numElements, 2 numBytes, then 16 bytes per element: 4 type, 4 padding, 8 data).
    Floats are their 32 bits.  A C string at [p] is the bytes from [p] up to a NUL; a string that
    runs out of memory is undefined.  Uninitialised padding is modelled as zero. *)
From Verif Require Export Base HashModel.

Inductive elem := Bang | Flt (bits : Z) | Sym (p : Z) | Hsh (h : Z).

Record msg := mkMsg { m_ts : Z; m_n : Z; m_nb : Z; m_el : list (option elem) }.

Definition bytes := list Z.

(** hv_strlen and the string itself. *)
Fixpoint scan (l : bytes) : option bytes :=
  match l with
  | [] => None
  | b :: l' => if b =? 0 then Some [] else
               match scan l' with None => None | Some s => Some (b :: s) end
  end.
Definition cstr (mem : bytes) (p : Z) : outcome bytes :=
  guard! (0 <? p) in
  match scan (skipn (Z.to_nat p) mem) with None => UB | Some s => Ok s end.

(** msg_getCoreSize, HvMessage.h:57-60 (size_t arithmetic; no 64-bit overflow considered). *)
Definition core (n : Z) : Z := 24 + (n - 1) * 16.
Definition msg_getCoreSize (n : Z) : outcome Z := assert! 0 <? n in Ok (core n).

(** msg_init, HvMessage.c:19-24, on storage for [cap] elements. *)
Definition msg_init (cap : nat) (numElements ts : Z) : outcome msg :=
  let! c := msg_getCoreSize numElements in
  Ok (mkMsg ts (u16 numElements) (u16 c) (repeat None cap)).

(** Element access: the assert checks only the upper bound (HvMessage.h:98,104,...). *)
Definition get_elem (m : msg) (i : Z) : outcome elem :=
  assert! i <? m_n m in
  guard! 0 <=? i in
  match nth_error (m_el m) (Z.to_nat i) with Some (Some e) => Ok e | _ => UB end.
Fixpoint set_nth {A} (k : nat) (x : A) (l : list A) : list A :=
  match l with
  | [] => []
  | y :: l' => match k with O => x :: l' | S k' => y :: set_nth k' x l' end
  end.
Definition set_elem (m : msg) (i : Z) (e : elem) : outcome msg :=
  assert! i <? m_n m in
  guard! (0 <=? i) && (i <? zlen (m_el m)) in
  Ok (mkMsg (m_ts m) (m_n m) (m_nb m) (set_nth (Z.to_nat i) (Some e) (m_el m))).

(** HvMessage.h:103-107, 114-118, 129-133. *)
Definition msg_setBang (m : msg) (i : Z) : outcome msg := set_elem m i Bang.
Definition msg_setFloat (m : msg) (i bits : Z) : outcome msg := set_elem m i (Flt bits).
Definition msg_setHash (m : msg) (i h : Z) : outcome msg := set_elem m i (Hsh h).
(** HvMessage.h:147-155. *)
Definition msg_setSymbol (mem : bytes) (m : msg) (i p : Z) : outcome msg :=
  assert! i <? m_n m in
  assert! negb (p =? 0) in
  let! m1 := set_elem m i (Sym p) in
  let! s := cstr mem p in
  Ok (mkMsg (m_ts m1) (m_n m1) (u16 (m_nb m1 + u16 (zlen s + 1))) (m_el m1)).

(** msg_initWithFloat/Bang/Symbol/Hash, HvMessage.c:26-56. *)
Definition init1 (ts nb : Z) : msg := mkMsg ts 1 nb [None].
Definition msg_initWithFloat (ts bits : Z) : outcome msg := msg_setFloat (init1 ts 24) 0 bits.
Definition msg_initWithBang (ts : Z) : outcome msg := msg_setBang (init1 ts 24) 0.
Definition msg_initWithHash (ts h : Z) : outcome msg := msg_setHash (init1 ts 24) 0 h.
Definition msg_initWithSymbol (mem : bytes) (ts p : Z) : outcome msg :=
  let! s := cstr mem p in
  msg_setSymbol mem (init1 ts (u16 (24 + u16 (zlen s)))) 0 p.

(** msg_isBang, msg_isFloat, msg_isHash, msg_isSymbol: HvMessage.h:109-164. *)
Definition test_elem (f : elem -> bool) (m : msg) (i : Z) : outcome bool :=
  if i <? m_n m then let! e := get_elem m i in Ok (f e) else Ok false.
Definition is_b (e : elem) := match e with Bang => true | _ => false end.
Definition is_f (e : elem) := match e with Flt _ => true | _ => false end.
Definition is_s (e : elem) := match e with Sym _ => true | _ => false end.
Definition is_h (e : elem) := match e with Hsh _ => true | _ => false end.

(** msg_setElementToFrom, HvMessage.c:135-143. *)
Definition msg_setElementToFrom (mem : bytes) (n : msg) (i_n : Z) (m : msg) (i_m : Z) : outcome msg :=
  let! e := get_elem m i_m in
  match e with
  | Bang => msg_setBang n i_n
  | Flt f => msg_setFloat n i_n f
  | Sym p => msg_setSymbol mem n i_n p
  | Hsh h => msg_setHash n i_n h
  end.

(** msg_getHash, HvMessage.c:145-158. *)
Definition msg_getHash (mem : bytes) (m : msg) (i : Z) : outcome Z :=
  let! e := get_elem m i in
  match e with
  | Bang => Ok 4294967295
  | Flt f => Ok f
  | Sym p => let! s := cstr mem p in Ok (hv_string_to_hash s)
  | Hsh h => Ok h
  end.

(** msg_compareSymbol, HvMessage.c:112-118; [s] the bytes of the argument string. *)
Fixpoint beq (a b : bytes) : bool :=
  match a, b with
  | [], [] => true
  | x :: a', y :: b' => (x =? y) && beq a' b'
  | _, _ => false
  end.
Definition msg_compareSymbol (mem : bytes) (m : msg) (i : Z) (s : bytes) : outcome bool :=
  let! e := get_elem m i in
  match e with
  | Sym p => let! t := cstr mem p in Ok (beq t s)
  | Hsh h => Ok (h =? hv_string_to_hash s)
  | _ => Ok false
  end.

(** Byte layout. *)
Fixpoint le (k : nat) (v : Z) : bytes :=
  match k with O => [] | S k' => v mod 256 :: le k' (v / 256) end.
Fixpoint unle (l : bytes) : Z := match l with [] => 0 | b :: l' => b + 256 * unle l' end.
Definition tag (e : elem) : Z := match e with Bang => 0 | Flt _ => 1 | Sym _ => 2 | Hsh _ => 3 end.
Definition data (e : elem) : Z := match e with Bang => 0 | Flt b => b | Sym p => p | Hsh h => h end.
Definition enc_elem (e : option elem) : bytes :=
  match e with
  | None => repeat 0 16
  | Some e => le 4 (tag e) ++ [0; 0; 0; 0] ++ le 8 (data e)
  end.
Definition enc_core (m : msg) : bytes :=
  le 4 (m_ts m) ++ le 2 (m_n m) ++ le 2 (m_nb m) ++ flat_map enc_elem (m_el m).

(** Reading a message that lies in memory (what every getter does through the pointer). *)
Definition load (mem : bytes) (a k : Z) : outcome Z :=
  guard! (0 <=? a) && (a + k <=? zlen mem) in
  Ok (unle (firstn (Z.to_nat k) (skipn (Z.to_nat a) mem))).
Definition load_elem (mem : bytes) (a : Z) : outcome elem :=
  let! t := load mem a 4 in
  match t with
  | 0 => Ok Bang
  | 1 => let! b := load mem (a + 8) 4 in Ok (Flt b)
  | 2 => let! p := load mem (a + 8) 8 in Ok (Sym p)
  | 3 => let! h := load mem (a + 8) 4 in Ok (Hsh h)
  | _ => UB
  end.
Fixpoint load_elems (mem : bytes) (a : Z) (k : nat) : outcome (list (option elem)) :=
  match k with
  | O => Ok []
  | S k' => let! e := load_elem mem a in let! l := load_elems mem (a + 16) k' in Ok (Some e :: l)
  end.
Definition load_msg (mem : bytes) (a : Z) : outcome msg :=
  let! ts := load mem a 4 in
  let! n := load mem (a + 4) 2 in
  let! nb := load mem (a + 6) 2 in
  let! l := load_elems mem (a + 8) (Z.to_nat n) in
  Ok (mkMsg ts n nb l).

(** Writing bytes at [a]. *)
Definition store (mem : bytes) (a : Z) (bs : bytes) : outcome bytes :=
  guard! (0 <=? a) && (a + zlen bs <=? zlen mem) in
  Ok (firstn (Z.to_nat a) mem ++ bs ++ skipn (Z.to_nat a + length bs) mem).

(** The loop of HvMessage.c:70-79 over elements i, i+1, ...  Returns the memory with the strings
    written, the elements of the copy and len_r.  hv_strncpy(p, s, symLen) copies s and its NUL. *)
Fixpoint copy_syms (mem : bytes) (len len_r p : Z) (els : list (option elem))
  : outcome (bytes * list (option elem) * Z) :=
  match els with
  | [] => Ok (mem, [], len_r)
  | e :: els' =>
    match e with
    | None => UB
    | Some (Sym q) =>
        let! s := cstr mem q in
        let symLen := zlen s + 1 in
        assert! len_r + symLen <=? len in
        let! mem1 := store mem p (s ++ [0]) in
        let! (mem2, l, n) := copy_syms mem1 len (len_r + symLen) (p + symLen) els' in
        Ok (mem2, Some (Sym p) :: l, n)
    | Some e =>
        let! (mem2, l, n) := copy_syms mem len len_r p els' in Ok (mem2, Some e :: l, n)
    end
  end.

(** msg_copyToBuffer, HvMessage.c:58-82, to address [a].  The patches of the struct part by
    msg_setSymbol (l.75) and the numBytes update (l.81) are one write at the end (the strings lie
    after the struct part). *)
Definition msg_copyToBuffer (mem : bytes) (m : msg) (a len : Z) : outcome bytes :=
  let! c := msg_getCoreSize (m_n m) in
  assert! c <=? len in
  let els := firstn (Z.to_nat (m_n m)) (m_el m) in
  guard! (zlen els =? m_n m) in
  let! mem0 := store mem a (enc_core (mkMsg (m_ts m) (m_n m) (m_nb m) els)) in
  let! (mem1, els', n) := copy_syms mem0 len c (a + c) els in
  store mem1 a (enc_core (mkMsg (m_ts m) (m_n m) (u16 n) els')).

(** msg_copy, HvMessage.c:85-91: [a] is the address returned by malloc(msg_getSize(m)). *)
Definition msg_copy (mem : bytes) (m : msg) (a : Z) : outcome bytes := msg_copyToBuffer mem m a (m_nb m).

(** msg_hasFormat, HvMessage.c:97-110; the format string is its bytes and a NUL. *)
Fixpoint has_format_loop (m : msg) (fmt : bytes) (i : Z) (k : nat) : outcome bool :=
  match k with
  | O => match nth_error (fmt ++ [0]) (Z.to_nat i) with None => UB | Some c => Ok (c =? 0) end
  | S k' =>
    match nth_error (fmt ++ [0]) (Z.to_nat i) with
    | None => UB
    | Some c =>
      let t := if c =? 98 then Some is_b else if c =? 102 then Some is_f
               else if c =? 104 then Some is_h else if c =? 115 then Some is_s else None in
      match t with
      | None => Ok false
      | Some f => let! b := test_elem f m i in
                  if b then has_format_loop m fmt (i + 1) k' else Ok false
      end
    end
  end.
Definition msg_hasFormat (m : msg) (fmt : bytes) : outcome bool :=
  has_format_loop m fmt 0 (Z.to_nat (m_n m)).

(** msg_toString, HvMessage.c:160-200.  [fmt_g] is printf's "%g". *)
Section ToString.
Variable fmt_g : Z -> bytes.
Definition hex_digit (d : Z) : Z := if d <? 10 then 48 + d else 55 + d.
Fixpoint hex (fuel : nat) (v : Z) (acc : bytes) : bytes :=
  match fuel with
  | O => acc
  | S f => if v <? 16 then hex_digit v :: acc else hex f (v / 16) (hex_digit (v mod 16) :: acc)
  end.
Definition bang_text : bytes := [98; 97; 110; 103].
Definition elem_text (mem : bytes) (e : elem) : outcome bytes :=
  match e with
  | Bang => Ok bang_text
  | Flt b => Ok (fmt_g b)
  | Sym p => cstr mem p
  | Hsh h => Ok ([48; 120] ++ hex 8 h [])          (* "0x%X" *)
  end.
(** First loop, l.167-177: the lengths. *)
Fixpoint len_loop (mem : bytes) (m : msg) (i : Z) (k : nat) : outcome (list Z) :=
  match k with
  | O => Ok []
  | S k' => let! e := get_elem m i in let! t := elem_text mem e in
            let! l := len_loop mem m (i + 1) k' in Ok ((zlen t + 1) :: l)
  end.
(** snprintf(buf+pos, len, "%s", t): at most len-1 characters and a NUL. *)
Definition snprintf (buf : bytes) (pos len : Z) (t : bytes) : outcome bytes :=
  if len <=? 0 then Ok buf else store buf pos (firstn (Z.to_nat (len - 1)) t ++ [0]).
(** Second loop, l.187-197. *)
Fixpoint text_loop (mem : bytes) (m : msg) (buf : bytes) (pos i : Z) (lens : list Z) : outcome bytes :=
  match lens with
  | [] => Ok buf
  | len :: lens' =>
    let! e := get_elem m i in let! t := elem_text mem e in
    let! buf1 := snprintf buf pos len t in
    let pos := pos + len in
    let! buf2 := store buf1 (pos - 1) [32] in
    text_loop mem m buf2 pos (i + 1) lens'
  end.
Definition msg_toString (mem : bytes) (m : msg) (junk : Z -> bytes) : outcome bytes :=
  assert! 0 <? m_n m in
  let! lens := len_loop mem m 0 (Z.to_nat (m_n m)) in
  let size := fold_right Z.add 0 lens in
  assert! 0 <? size in
  let! buf := text_loop mem m (junk size) 0 0 lens in
  store buf (size - 1) [0].
End ToString.
