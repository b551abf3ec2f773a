(* IEEE-754 arithmetic as the processor provides it (addps, subps, mulps and
   the conversions), on bit patterns.  These are the instructions that the
   operators + - * of the vectors in /repo/experimental/bits/simd_builtin.h
   2119-2250, simd_x86.h 2654-2820 and simd_math.h 640-860 compile to.  Flush-
   to-zero and denormals-are-zero modes are off.  Which NaN an operation returns
   is not modelled: it is always nan_bits. *)
From Coq Require Import ZArith List Bool.
From Verif Require Import X86Lanes FloatSpec FloatRoundSpec FloatBits.
Open Scope Z_scope.

(* the number a bit pattern without sign stands for, in units of the smallest
   positive number (3.4); inf_bits counts as the power of two after the largest
   finite number, as in 4.3.1;
   helper for simd_builtin.h 2119-2250, simd_x86.h 2654-2820, simd_math.h 640-860 *)
Definition mag (f : fmt) (a : Z) : Z :=
  if a <? 2 ^ mb f then a else (2 ^ mb f + a mod 2 ^ mb f) * 2 ^ (a / 2 ^ mb f - 1).
(* the largest bit pattern without sign whose number is at most m; at least
   inf_bits if m is too large;
   helper for simd_builtin.h 2119-2250, simd_x86.h 2654-2820, simd_math.h 640-860 *)
Definition floor_bits (f : fmt) (m : Z) : Z :=
  if m <? 2 ^ mb f then m
  else let e := Z.log2 m - mb f in (e + 1) * 2 ^ mb f + (m / 2 ^ e - 2 ^ mb f).
(* does direction md round a number between two neighbours a and a + 1 up in
   magnitude?  s: the number is negative; c: comparison with the middle;
   helper for simd_builtin.h 2119-2250, simd_x86.h 2654-2820, simd_math.h 640-860 *)
Definition round_up_mag (md : rmode) (s : bool) (c : comparison) (a : Z) : bool :=
  match md with
  | ToZero => false
  | Upward => negb s
  | Downward => s
  | ToNearest => match c with Lt => false | Gt => true | Eq => Z.odd a end
  end.
(* the bit pattern without sign of n / 2^k units rounded in direction md.
   Beyond the largest number: 4.3.1, 4.3.2;
   helper for simd_builtin.h 2119-2250, simd_x86.h 2654-2820, simd_math.h 640-860 *)
Definition round_bits (f : fmt) (md : rmode) (s : bool) (n k : Z) : Z :=
  let a := Z.min (floor_bits f (n / 2 ^ k)) (finite_max_bits f) in
  if mag f a * 2 ^ k =? n then a
  else if round_up_mag md s (2 * n ?= (mag f a + mag f (a + 1)) * 2 ^ k) a then a + 1 else a.
(* simd_builtin.h 2119-2250, simd_x86.h 2654-2820, simd_math.h 640-860 *)
Definition with_sign (f : fmt) (s : bool) (a : Z) : Z := if s then 2 ^ (fw f - 1) + a else a.
(* simd_builtin.h 2119-2250, simd_x86.h 2654-2820, simd_math.h 640-860 *)
Definition nan_bits (f : fmt) : Z := inf_bits f + 2 ^ (mb f - 1).

(* a number (in units of 2^-k of the smallest positive number) as a result; an
   exact zero has sign z (6.3);
   helper for simd_builtin.h 2119-2250, simd_x86.h 2654-2820, simd_math.h 640-860 *)
Definition fround (f : fmt) (md : rmode) (z : bool) (v k : Z) : Z :=
  if v =? 0 then with_sign f z 0
  else with_sign f (v <? 0) (round_bits f md (v <? 0) (Z.abs v) k).

(* 5.4.1 addition, 6.1 infinities, 6.3 sign of zero;
   helper for simd_builtin.h 2119-2250, simd_x86.h 2654-2820, simd_math.h 640-860 *)
Definition fadd (f : fmt) (md : rmode) (x y : Z) : Z :=
  match decode f x, decode f y with
  | DNaN, _ | _, DNaN => nan_bits f
  | DInf a, DInf b => if Bool.eqb a b then with_sign f a (inf_bits f) else nan_bits f
  | DInf a, _ => with_sign f a (inf_bits f)
  | _, DInf b => with_sign f b (inf_bits f)
  | DFin a m, DFin b n =>
      let z := if Bool.eqb a b then a else match md with Downward => true | _ => false end in
      fround f md z (num a m + num b n) 0
  end.
(* negation flips the sign bit (5.5.1);
   helper for simd_builtin.h 2119-2250, simd_x86.h 2654-2820, simd_math.h 640-860 *)
Definition fneg (f : fmt) (x : Z) : Z := Z.lxor x (signmask f).
(* simd_builtin.h 2119-2250, simd_x86.h 2654-2820, simd_math.h 640-860 *)
Definition fsub (f : fmt) (md : rmode) (x y : Z) : Z := fadd f md x (fneg f y).
(* 5.4.1 multiplication;
   helper for simd_builtin.h 2119-2250, simd_x86.h 2654-2820, simd_math.h 640-860 *)
Definition fmul (f : fmt) (md : rmode) (x y : Z) : Z :=
  match decode f x, decode f y with
  | DNaN, _ | _, DNaN => nan_bits f
  | DInf a, DInf b => with_sign f (xorb a b) (inf_bits f)
  | DInf a, DFin b n => if n =? 0 then nan_bits f else with_sign f (xorb a b) (inf_bits f)
  | DFin a m, DInf b => if m =? 0 then nan_bits f else with_sign f (xorb a b) (inf_bits f)
  | DFin a m, DFin b n => fround f md (xorb a b) (num a m * num b n) (unit f)
  end.
(* 5.4.1 convertFromInt;
   helper for simd_builtin.h 2119-2250, simd_x86.h 2654-2820, simd_math.h 640-860 *)
Definition fof_int (f : fmt) (md : rmode) (v : Z) : Z := fround f md false (v * 2 ^ unit f) 0.

(* round a finite number to an integer (5.9): the integer nearest to m / 2^k
   for m >= 0 in direction md, ties as in 4.3.1;
   helper for simd_builtin.h 2119-2250, simd_x86.h 2654-2820, simd_math.h 640-860 *)
Definition round_int (md : rmode) (s : bool) (m k : Z) : Z :=
  let q := m / 2 ^ k in
  if q * 2 ^ k =? m then q
  else if round_up_mag md s (2 * m ?= (2 * q + 1) * 2 ^ k) q then q + 1 else q.
(* roundps/pd, vrndscaleps/pd, vrnd*: 5.9 and 6.3 (the sign of the operand is
   kept);
   helper for simd_builtin.h 2119-2250, simd_x86.h 2654-2820, simd_math.h 640-860 *)
Definition fround_to_int (f : fmt) (md : rmode) (x : Z) : Z :=
  match decode f x with
  | DNaN => nan_bits f
  | DInf s => with_sign f s (inf_bits f)
  | DFin s m => with_sign f s (round_bits f ToZero s (round_int md s m (unit f) * 2 ^ unit f) 0)
  end.
