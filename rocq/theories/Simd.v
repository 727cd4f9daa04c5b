(** Lane semantics of the vector instructions used by the modelled kernels (Intel intrinsics guide,
    ARM ACLE).  Lane 0 is the lowest address.  [A] is the lane type. *)
From Verif Require Export Base.

Section Simd.
Context {A : Type}.
Inductive vec4 := V4 (a b c d : A).
Inductive vec8 := V8 (lo hi : vec4).
Definition lane (v : vec4) (i : nat) : A :=
  match v, i with V4 a _ _ _, 0%nat => a | V4 _ b _ _, 1%nat => b | V4 _ _ c _, 2%nat => c | V4 _ _ _ d, _ => d end.
Definition list4 (v : vec4) : list A := match v with V4 a b c d => [a; b; c; d] end.
Definition list8 (v : vec8) : list A := match v with V8 lo hi => list4 lo ++ list4 hi end.
(** _mm_set1_ps / vdupq_n_f32 *)
Definition set1 (a : A) : vec4 := V4 a a a a.
Definition set1_8 (a : A) : vec8 := V8 (set1 a) (set1 a).
(** _mm_shuffle_ps(a, b, _MM_SHUFFLE(z,y,x,w)): two lanes of a, two lanes of b. *)
Definition shuffle (p q : vec4) (z y x w : nat) : vec4 := V4 (lane p w) (lane p x) (lane q y) (lane q z).
(** _mm_blend_ps(a, b, mask): lane i of b where bit i is set.  The four mask bits, lane 0 first. *)
Definition blend (p q : vec4) (m0 m1 m2 m3 : bool) : vec4 :=
  V4 (if m0 then lane q 0 else lane p 0) (if m1 then lane q 1 else lane p 1)
     (if m2 then lane q 2 else lane p 2) (if m3 then lane q 3 else lane p 3).
(** vextq_f32(a, b, n): lanes n, n+1, n+2, n+3 of a followed by b. *)
Definition vext (p q : vec4) (n : nat) : vec4 :=
  let l i := if Nat.ltb i 4 then lane p i else lane q (i - 4) in
  V4 (l n) (l (n + 1)%nat) (l (n + 2)%nat) (l (n + 3)%nat).
(** _mm_unpacklo_ps, _mm_unpackhi_ps *)
Definition unpacklo (p q : vec4) : vec4 := V4 (lane p 0) (lane q 0) (lane p 1) (lane q 1).
Definition unpackhi (p q : vec4) : vec4 := V4 (lane p 2) (lane q 2) (lane p 3) (lane q 3).
(** _mm256_unpacklo_ps, _mm256_unpackhi_ps: within each 128 bit half. *)
Definition unpacklo8 (p q : vec8) : vec8 := match p, q with V8 a b, V8 c d => V8 (unpacklo a c) (unpacklo b d) end.
Definition unpackhi8 (p q : vec8) : vec8 := match p, q with V8 a b, V8 c d => V8 (unpackhi a c) (unpackhi b d) end.
(** _mm256_permute_ps(a, _MM_SHUFFLE(z,y,x,w)): the same permutation in each half. *)
Definition permute8 (p : vec8) (z y x w : nat) : vec8 :=
  match p with V8 a b => V8 (shuffle a a z y x w) (shuffle b b z y x w) end.
(** _mm256_permute2f128_ps(a, b, imm): selectors 0 a.lo, 1 a.hi, 2 b.lo, 3 b.hi for the low
    (imm[1:0]) and high (imm[5:4]) half of the result; the zeroing bits are not used. *)
Definition sel128 (p q : vec8) (s : nat) : vec4 :=
  match p, q with V8 a b, V8 c d => match s with 0%nat => a | 1%nat => b | 2%nat => c | _ => d end end.
Definition permute2f128 (p q : vec8) (lo hi : nat) : vec8 := V8 (sel128 p q lo) (sel128 p q hi).
(** _mm256_blend_ps: four bits per half. *)
Definition blend8 (p q : vec8) (l0 l1 l2 l3 h0 h1 h2 h3 : bool) : vec8 :=
  match p, q with V8 a b, V8 c d => V8 (blend a c l0 l1 l2 l3) (blend b d h0 h1 h2 h3) end.
End Simd.
Arguments vec4 : clear implicits. Arguments vec8 : clear implicits.

Definition map4 {A B} (f : A -> B) (v : vec4 A) : vec4 B := match v with V4 a b c d => V4 (f a) (f b) (f c) (f d) end.
Definition map2_4 {A B C} (f : A -> B -> C) (v : vec4 A) (w : vec4 B) : vec4 C :=
  match v, w with V4 a b c d, V4 p q r s => V4 (f a p) (f b q) (f c r) (f d s) end.
Definition map2_8 {A B C} (f : A -> B -> C) (v : vec8 A) (w : vec8 B) : vec8 C :=
  match v, w with V8 a b, V8 c d => V8 (map2_4 f a c) (map2_4 f b d) end.
