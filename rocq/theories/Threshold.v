(* /repo/experimental/bits/numeric_traits.h: __reciprocal_overflow_threshold
   (318-347), __digits10 (60-80), __max_digits10 (82-92).

   Floating-point numbers are bit patterns of an IEEE format (FloatArith.v).  The
   constants are computed by the compiler, which rounds to nearest.  The x87
   format is not of this kind, its explicit leading bit has no influence on the
   values. *)
From Coq Require Import ZArith Bool.
From Verif Require Import FloatSpec FloatRoundSpec FloatBits FloatArith SinCos.
Open Scope Z_scope.

(* operator== and operator<=; helper for numeric_traits.h 318-347, 60-80, 82-92 *)
Definition c_equal (f : fmt) (x y : Z) : bool :=
  match ieee_compare (decode f x) (decode f y) with Some Eq => true | _ => false end.
(* numeric_traits.h 318-347, 60-80, 82-92 *)
Definition c_less_equal (f : fmt) (x y : Z) : bool := less_equal (decode f x) (decode f y).

(* numeric_traits.h 153-162: __radix_impl, the int 2, converted to _Tp where it
   meets a _Tp *)
Definition radix (f : fmt) : Z := fof_int f ToNearest 2.
(* _Tp(1.01), _Tp(0.99): the double literals 4548635623644201 / 2^52 and
   8917127262193582 / 2^53, rounded to _Tp;
   helper for numeric_traits.h 318-347, 60-80, 82-92 *)
Definition lit_101 (f : fmt) : Z := fround f ToNearest false (4548635623644201 * 2 ^ unit f) 52.
(* numeric_traits.h 153-162 *)
Definition lit_099 (f : fmt) : Z := fround f ToNearest false (8917127262193582 * 2 ^ unit f) 53.

(* 323-341: _S_search; fuel bounds the depth of the recursion *)
Fixpoint search (f : fmt) (fuel : nat) (ok overflows : Z) : option Z :=
  match fuel with
  | O => None
  | S fuel' =>
      let mid := fdiv f ToNearest (fadd f ToNearest ok overflows) (radix f) in
      if c_equal f mid ok || c_equal f mid overflows then Some ok
      else if c_less_equal f (fdiv f ToNearest (one_bits f) (fmul f ToNearest (radix f) mid))
                             (fdiv f ToNearest (finite_max_bits f) (radix f))
      then search f fuel' mid overflows
      else search f fuel' ok mid
  end.
(* 343-346: value *)
Definition reciprocal_overflow_threshold (f : fmt) (fuel : nat) : option Z :=
  search f fuel (fdiv f ToNearest (lit_101 f) (finite_max_bits f))
                (fdiv f ToNearest (lit_099 f) (finite_max_bits f)).

(* 60-67: __digits10_impl for integers with d digits *)
Definition digits10 (d : Z) : Z := d * 643 / 2136.
(* 82-92: __max_digits10_impl *)
Definition max_digits10 (floating : bool) (d : Z) : Z :=
  if floating then 2 + d * 643 / 2136 else digits10 d + 1.
