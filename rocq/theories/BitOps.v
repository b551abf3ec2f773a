(* Model of the bitwise functions on vector registers, /repo/experimental/bits/simd.h
   1713-1897 (__xor, __or, __and, __andnot, __not), of the operators and selections made
   of them (simd_builtin.h 1634-1702, 2479-2486, 2795-2837, 2872-2888; simd.h 5174-5199;
   simd_x86.h 790-822), and of the bitwise operators of the scalar ABI (simd_scalar.h
   200-203, 246-283).  A register is the list of its bytes, lowest address first; x86 is
   little endian. *)
From Coq Require Import ZArith List Bool.
Import ListNotations.
Open Scope Z_scope.

(* The value type of a vector: integral or floating point (is_floating_point_v, simd.h
   1723, 1748, 1773, 1891) *)
Inductive kind := Integral | Floating.
(* What the #if, if constexpr and __builtin_constant_p tests look at (simd.h 1790, 1826,
   1829, 1861-1868): x86 without clang; AVX512DQ; whether both operands are constants *)
Record target := { x86_gcc : bool; has_avx512dq : bool; constants : bool }.

(* reinterpret_cast between vectors (__vector_bitcast, simd.h 1550-1571): the lane of the
   bytes bs as an unsigned integer, and its w bytes *)
Fixpoint from_bytes (bs : list Z) : Z :=
  match bs with [] => 0 | b :: r => b + 256 * from_bytes r end.
(* simd.h 1550-1571 *)
Fixpoint to_bytes (w : nat) (v : Z) : list Z :=
  match w with O => [] | S w => v mod 256 :: to_bytes w (v / 256) end.
(* A GNU vector operator or an instruction that works on lanes of w bytes (the
   expressions a ^ b, a | b, a & b, ~a of simd.h 1726-1735, 1751-1760, 1776-1785,
   1878-1879, 1892-1895): k lanes *)
Fixpoint lanes2 (k w : nat) (f : Z -> Z -> Z) (a b : list Z) : list Z :=
  match k with
  | O => []
  | S k => to_bytes w (f (from_bytes (firstn w a)) (from_bytes (firstn w b)))
           ++ lanes2 k w f (skipn w a) (skipn w b)
  end.
(* simd.h 1726-1735, 1751-1760, 1776-1785, 1878-1879, 1892-1895 *)
Fixpoint lanes1 (k w : nat) (f : Z -> Z) (a : list Z) : list Z :=
  match k with
  | O => []
  | S k => to_bytes w (f (from_bytes (firstn w a))) ++ lanes1 k w f (skipn w a)
  end.
(* simd.h 1726-1735, 1751-1760, 1776-1785, 1878-1879, 1892-1895 *)
Definition vec2 (w : nat) (f : Z -> Z -> Z) (a b : list Z) : list Z := lanes2 (length a / w) w f a b.
(* simd.h 1726-1735, 1751-1760, 1776-1785, 1878-1879, 1892-1895 *)
Definition vec1 (w : nat) (f : Z -> Z) (a : list Z) : list Z := lanes1 (length a / w) w f a.

(* simd.h 1713-1736 (__xor), 1738-1761 (__or), 1763-1786 (__and): n = sizeof(_Tp); the
   floating-point branch casts to the unsigned integer type of the same size *)
Definition v_xor (n : nat) : list Z -> list Z -> list Z := vec2 n Z.lxor.
(* simd.h 1713-1736, 1738-1761, 1763-1786 *)
Definition v_or (n : nat) : list Z -> list Z -> list Z := vec2 n Z.lor.
(* simd.h 1713-1736, 1738-1761, 1763-1786 *)
Definition v_and (n : nat) : list Z -> list Z -> list Z := vec2 n Z.land.
(* simd.h 1790-1849 (_S_x86_andnot): the lanes of the instruction chosen for the
   intrinsic type; integers always have 64-bit lanes (__v2di, __v4di, __v8di), also in
   the AVX branch through __v4df (1812-1820); floats and doubles have their own, except
   that 64 bytes without AVX512DQ use _mm512_andnot_si512 (1826-1844) *)
Definition andnot_lane (t : target) (k : kind) (n bytes : nat) : nat :=
  match k with
  | Integral => 8%nat
  | Floating => if Nat.eqb bytes 64 then if has_avx512dq t then n else 8%nat else n
  end.
(* ~a & b, the operation of andnps, pandn and of the expression in 1878-1879 *)
Definition and_not (a b : Z) : Z := Z.land (Z.lnot a) b.
(* simd.h 1851-1883 (__andnot) *)
Definition v_andnot (t : target) (k : kind) (n : nat) (a b : list Z) : list Z :=
  if x86_gcc t && Nat.leb 16 (length a) && negb (constants t)
  then vec2 (andnot_lane t k n (length a)) and_not a b
  else vec2 n and_not a b.
(* simd.h 1886-1897 (__not): floating-point vectors as vectors of unsigned *)
Definition v_not (k : kind) (n : nat) (a : list Z) : list Z :=
  match k with Integral => vec1 n Z.lnot a | Floating => vec1 4 Z.lnot a end.

(* The operators &, |, ^, ~ of simd (simd_builtin.h 1634-1639, 1689-1702; for
   floating-point types in __float_bitwise_operators, simd.h 5174-5199) *)
Definition simd_and (n : nat) := v_and n.
(* simd_builtin.h 1634-1639, 1689-1702, simd.h 5174-5199 *)
Definition simd_or (n : nat) := v_or n.
(* simd_builtin.h 1634-1639, 1689-1702, simd.h 5174-5199 *)
Definition simd_xor (n : nat) := v_xor n.
(* simd_builtin.h 1634-1639, 1689-1702, simd.h 5174-5199 *)
Definition simd_complement (n : nat) (a : list Z) : list Z := vec1 n Z.lnot a.

(* The operators of vector masks (simd_builtin.h 2795-2837).  The element type of a mask
   register is an integer.  _S_implicit_mask (simd_builtin.h 1000-1013): all bits set in
   the N elements, none in the padding *)
Definition mask_and (n : nat) := v_and n.
(* simd_builtin.h 2795-2837, 1000-1013 *)
Definition mask_or (n : nat) := v_or n.
(* simd_builtin.h 2795-2837, 1000-1013 *)
Definition mask_xor (n : nat) := v_xor n.
(* simd_builtin.h 2795-2837, 1000-1013 *)
Definition implicit_mask (n N bytes : nat) : list Z := repeat 255 (N * n) ++ repeat 0 (bytes - N * n).
(* simd_builtin.h 2795-2837, 1000-1013 *)
Definition mask_not (t : target) (n N : nat) (a : list Z) : list Z :=
  if Nat.ltb (N * n) (length a) then v_andnot t Integral n a (implicit_mask n N (length a))
  else v_not Integral n a.
(* where(k, mask) = bool with a constant (simd_builtin.h 2872-2886) *)
Definition mask_assign_const (t : target) (n : nat) (k lhs : list Z) (rhs : bool) : list Z :=
  if rhs then v_or n k lhs else v_andnot t Integral n k lhs.
(* where(k, x) = 0 with a constant zero (simd_builtin.h 2479-2484) *)
Definition assign_zero (t : target) (kd : kind) (n : nat) (k lhs : list Z) : list Z := v_andnot t kd n k lhs.
(* _S_blend without SSE4.1 (simd_x86.h 819) *)
Definition blend_sse2 (t : target) (kd : kind) (n : nat) (k at0 at1 : list Z) : list Z :=
  v_or n (v_andnot t kd n k at0) (v_and n k at1).

(* ---- the scalar ABI --------------------------------------------------------------- *)
(* static_cast to an integer type of w bits (simd_scalar.h 203, 255, 268, 281) *)
Definition to_type (sgn : bool) (w v : Z) : Z :=
  if sgn then (v + 2 ^ (w - 1)) mod 2 ^ w - 2 ^ (w - 1) else v mod 2 ^ w.
(* __promote_preserving_unsigned (simd_scalar.h 36-48) and the promotion by the operator:
   narrower than int: to int or unsigned int of the same signedness *)
Definition promote (sgn : bool) (w v : Z) : Z := if w <? 32 then to_type sgn 32 v else v.
(* simd_scalar.h 246-283, integers *)
Definition scalar_op (f : Z -> Z -> Z) (sgn : bool) (w x y : Z) : Z :=
  to_type sgn w (f (promote sgn w x) (promote sgn w y)).
(* simd_scalar.h 200-203; ~ promotes every narrower type to int *)
Definition scalar_complement (sgn : bool) (w x : Z) : Z :=
  to_type sgn w (to_type (if w <? 32 then true else sgn) (Z.max w 32) (Z.lnot (if w <? 32 then to_type true 32 x else x))).
