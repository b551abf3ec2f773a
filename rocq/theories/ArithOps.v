(* The operators + - * / and sqrt of simd<float> and simd<double>: simd.h 5070-5085,
   simd_builtin.h 1651-1677, simd_x86.h 2589-2608, 1478-1482.  One register; fixed_size
   applies the functions to every register (simd_fixed_size.h 1544-1547), the scalar ABI
   to one lane (simd_scalar.h 212-235).  long double is not modelled. *)
From Coq Require Import ZArith List Bool.
From Verif Require Import Prelude X86Lanes FloatSpec FloatRoundSpec FloatBits FloatArith Hypot SinCos.
Import ListNotations.
Local Open Scope Z_scope.

(* simd_builtin.h 1651-1664: _S_plus, _S_minus, _S_multiplies: operators of GCC vectors *)
Definition plus_reg (f : fmt) (md : rmode) (x y : list Z) : list Z := map2 (fadd f md) x y.
(* simd_builtin.h 1651-1664 *)
Definition minus_reg (f : fmt) (md : rmode) (x y : list Z) : list Z := map2 (fsub f md) x y.
(* simd_builtin.h 1651-1664 *)
Definition multiplies_reg (f : fmt) (md : rmode) (x y : list Z) : list Z := map2 (fmul f md) x y.
(* simd_x86.h 2589-2608: _S_sqrt: sqrtps, sqrtpd *)
Definition sqrt_reg (f : fmt) (md : rmode) (x : list Z) : list Z := map (fsqrt f md) x.

(* _S_implicit_mask (simd_builtin.h 1000-1013), one lane *)
Definition implicit_lane (f : fmt) (n i : nat) : Z := if (i <? n)%nat then 2 ^ fw f - 1 else 0.
(* simd_builtin.h 1034-1058: __make_padding_nonzero for vector masks:
   (x & mask) | (~mask & 1.0) *)
Definition padding_one_lane (f : fmt) (n i : nat) (x : Z) : Z :=
  let mask := implicit_lane f n i in
  let one := Z.ldiff (one_bits f) mask in
  Z.lor (Z.land x mask) one.
(* simd_builtin.h 1186-1212: for AVX-512 masks: blend(mask, 1.0, x) *)
Definition padding_blend_lane (f : fmt) (n i : nat) (x : Z) : Z :=
  if Z.testbit (2 ^ Z.of_nat n - 1) (Z.of_nat i) then x else one_bits f.
(* simd_builtin.h 1186-1212 *)
Definition make_padding_one (bitmask : bool) (f : fmt) (n : nat) (y : list Z) : list Z :=
  if (n =? length y)%nat then y
  else map2 (if bitmask then padding_blend_lane f n else padding_one_lane f n) (seq 0 (length y)) y.
(* simd_builtin.h 1666-1677: _S_divides: the operands of the division of vectors *)
Definition divisor_reg (bitmask : bool) (f : fmt) (n : nat) (y : list Z) : list Z := make_padding_one bitmask f n y.
(* simd_builtin.h 1666-1677 *)
Definition divides_reg (bitmask : bool) (f : fmt) (md : rmode) (n : nat) (x y : list Z) : list Z :=
  map2 (fdiv f md) x (divisor_reg bitmask f n y).
