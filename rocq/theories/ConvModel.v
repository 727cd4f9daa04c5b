(** Model of /repo/hvcc/generators/ir2c/static/HvSignalConvolution.c ([conv~]).

    Samples are elements of a type [A] with addition and multiplication (exact arithmetic in the
    theorems: any commutative ring).  Tables are those of TableModel. *)
From Verif Require Export TableModel EnvModel.

Section Conv.
Context {A : Type} (zero : A) (add mul : A -> A -> A).

(** sConv_init, HvSignalConvolution.c:19-23: the ring of past inputs. *)
Definition sConv_init (b : build) (size : Z) : outcome (table A) := hTable_init zero (lanes b) size.
(** sConv_onMessage case 1, l.34-45: another table, of size [n], was named. *)
Definition sConv_setTable (b : build) (aligned : bool) (inputs : table A) (n : Z) : outcome (table A) :=
  if t_size inputs =? n then Ok inputs
  else hTable_resize zero (lanes b) aligned inputs (Z.min (t_size inputs) n).
(** Case 2, l.46-52: a size; [k] is the float after the conversion to hv_uint32_t. *)
Definition sConv_setSize (b : build) (aligned : bool) (inputs : table A) (k : Z) : outcome (table A) :=
  hTable_resize zero (lanes b) aligned inputs k.

(** sConv_kernel, l.57-101.  AVX: the assertion of l.59 (it does not even compile unless NDEBUG removes it). *)
Definition sConv_kernel (b : build) (bIn bInPrev bInCoeff : list A) : outcome (list A) :=
  let c i := nth i bInCoeff zero in let x i := nth i bIn zero in let p i := nth i bInPrev zero in
  (* _mm_shuffle_ps(a, b, _MM_SHUFFLE(l, k, j, i)) *)
  let shuffle (a b : list A) l k j i := [nth i a zero; nth j a zero; nth k b zero; nth l b zero] in
  (* vextq_f32(a, b, n) *)
  let vext (a b : list A) (n : nat) := firstn 4 (skipn n (a ++ b)) in
  (* c_k * m_k + acc, one lane after the other; l.75-78, 93-96 *)
  let scale k m := map (mul (c k)) m in
  let sum m0 m1 m2 m3 :=
    map2 add (scale 3%nat m3) (map2 add (scale 2%nat m2) (map2 add (scale 1%nat m1) (scale 0%nat m0))) in
  match b with
  | B_NONE => Ok [mul (x O) (c O)]
  | B_SSE =>
      let m2 := shuffle bInPrev bIn 1%nat 0%nat 3%nat 2%nat in
      let m1 := shuffle m2 bIn 2%nat 1%nat 2%nat 1%nat in
      let m3 := shuffle bInPrev m2 2%nat 1%nat 2%nat 1%nat in
      Ok (sum bIn m1 m2 m3)
  | B_NEON => Ok (sum bIn (vext bInPrev bIn 3%nat) (vext bInPrev bIn 2%nat) (vext bInPrev bIn 1%nat))
  | B_AVX => AssertFail
  end.

(** wrap, l.103-107. *)
Definition wrap (i n : Z) : Z := if i <? 0 then i + n else if n <=? i then i - n else i.

(** The body of both loops, l.127-135, 137-144. *)
Definition tap (b : build) (coeffs inputs : list (option A)) (i h : Z) (x0 out : list A) : outcome (list A * list A) :=
  let! x1 := load inputs h (lanes b) in
  let! c := load coeffs i (lanes b) in
  let! o := sConv_kernel b x0 x1 c in
  Ok (x1, map2 add o out).
(** for (; h >= 0; i+=N, h-=N), l.127; at most [k] turns (k is chosen so that h is negative afterwards). *)
Fixpoint loop1 (b : build) (coeffs inputs : list (option A)) (k : nat) (i h : Z) (x0 out : list A) : outcome (Z * Z * list A * list A) :=
  match k with
  | O => Ok (i, h, x0, out)
  | S k => if 0 <=? h then let! (x1, o) := tap b coeffs inputs i h x0 out in loop1 b coeffs inputs k (i + lanes b) (h - lanes b) x1 o
           else Ok (i, h, x0, out)
  end.
(** for (; i < n; i+=N, h-=N), l.137; at most [k] turns. *)
Fixpoint loop2 (b : build) (coeffs inputs : list (option A)) (n : Z) (k : nat) (i h : Z) (x0 out : list A) : outcome (list A) :=
  match k with
  | O => Ok out
  | S k => if i <? n then let! (x1, o) := tap b coeffs inputs i h x0 out in loop2 b coeffs inputs n k (i + lanes b) (h - lanes b) x1 o
           else Ok out
  end.
(** __hv_conv_f, l.109-150.  The coefficient table pointer is not NULL (the compiler refuses unknown tables). *)
Definition hv_conv (b : build) (tbl inputs : table A) (bIn : list A) : outcome (table A * list A) :=
  let n := t_size tbl in
  let! _ := (if Z.land n (lanes b - 1) =? 0 then Ok tt else AssertFail) in
  let m := t_size inputs in
  let! _ := (if n <=? m then Ok tt else AssertFail) in
  let h_orig := t_head inputs in
  let h := wrap (h_orig - lanes b) m in
  let! (i, h, x0, out) := loop1 b (t_mem tbl) (t_mem inputs) (Z.to_nat (h + 1)) 0 h bIn (repeat zero (Z.to_nat (lanes b))) in
  let! out := loop2 b (t_mem tbl) (t_mem inputs) n (Z.to_nat (n - i)) i (h + m) x0 out in
  let! mem := write_cells (t_mem inputs) h_orig (map Some bIn) in
  Ok (mkTable mem (t_heap inputs) (t_length inputs) m (t_allocated inputs) (wrap (h_orig + lanes b) m), out).

(** Before the first vector: the constructor and any number of size messages (libs/heavy/conv~.pd sends the
    size of the coefficient table from a loadbang). *)
Fixpoint resizes (b : build) (t : table A) (sizes : list (bool * Z)) : outcome (table A) :=
  match sizes with [] => Ok t | (al, k) :: r => let! t1 := sConv_setSize b al t k in resizes b t1 r end.
Definition sConv_setup (b : build) (size : Z) (sizes : list (bool * Z)) : outcome (table A) :=
  let! t := sConv_init b size in resizes b t sizes.

(** A history: for every vector of input, the coefficient table as it is at that moment. *)
Fixpoint conv_run (b : build) (inputs : table A) (l : list (table A * list A)) : outcome (table A * list (list A)) :=
  match l with
  | [] => Ok (inputs, [])
  | (tbl, x) :: r => let! (i1, y) := hv_conv b tbl inputs x in let! (i2, ys) := conv_run b i1 r in Ok (i2, y :: ys)
  end.
End Conv.
