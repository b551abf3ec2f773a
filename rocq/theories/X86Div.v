(* Model of the x86 integer division that goes through floating point:
   /repo/experimental/bits/simd_x86.h 1381-1499 (with simd_builtin.h 1182-1213,
   1656-1664).

   A finite float is a pair (m, e) of value m * 2^e.  Only the value matters
   here, so encodings are left out; all intermediate values are far from
   overflow and underflow.  up is the rounding mode: it decides for every
   inexact result whether the larger or the smaller neighbour (in magnitude) is
   taken; round-to-nearest and all directed modes are instances. *)
From Coq Require Import ZArith List Bool.
From Verif Require Import Prelude X86Lanes.
Import ListNotations.
Open Scope Z_scope.

(* simd_x86.h 1381-1499, simd_builtin.h 1182-1213, 1656-1664 *)
Definition float := (Z * Z)%type.
(* simd_x86.h 1381-1499, simd_builtin.h 1182-1213, 1656-1664 *)
Definition rounding := Z -> Z -> bool.
(* floor(log2(n / d)) for n, d > 0;
   helper for simd_x86.h 1381-1499, simd_builtin.h 1182-1213, 1656-1664 *)
Definition ratio_log2 (n d : Z) : Z :=
  let k := Z.log2 n - Z.log2 d in
  if n * 2 ^ Z.max 0 (- k) <? d * 2 ^ Z.max 0 k then k - 1 else k.
(* IEEE-754: n / d (n >= 0, d > 0) rounded to p significant bits;
   helper for simd_x86.h 1381-1499, simd_builtin.h 1182-1213, 1656-1664 *)
Definition round_ratio (up : rounding) (p n d : Z) : float :=
  if n =? 0 then (0, 0) else
  let s := p - 1 - ratio_log2 n d in
  let num := n * 2 ^ Z.max 0 s in
  let den := d * 2 ^ Z.max 0 (- s) in
  let m := num / den in
  (if num mod den =? 0 then m else if up n d then m + 1 else m, - s).
(* simd_x86.h 1381-1499, simd_builtin.h 1182-1213, 1656-1664 *)
Definition round_signed (up : rounding) (p n d : Z) : float :=
  let '(m, e) := round_ratio up p (Z.abs n) (Z.abs d) in (Z.sgn n * Z.sgn d * m, e).
(* cvtdq2ps, cvtdq2pd: integer to float;
   helper for simd_x86.h 1381-1499, simd_builtin.h 1182-1213, 1656-1664 *)
Definition of_int (up : rounding) (p v : Z) : float := round_signed up p v 1.
(* divps, divpd; helper for simd_x86.h 1381-1499, simd_builtin.h 1182-1213, 1656-1664 *)
Definition fdiv (up : rounding) (p : Z) (x y : float) : float :=
  let '(mx, ex) := x in
  let '(my, ey) := y in
  round_signed up p (mx * 2 ^ Z.max 0 (ex - ey)) (my * 2 ^ Z.max 0 (ey - ex)).
(* cvttps2dq, cvttpd2dq and static_cast to an integer: truncation;
   helper for simd_x86.h 1381-1499, simd_builtin.h 1182-1213, 1656-1664 *)
Definition to_int (x : float) : Z :=
  let '(m, e) := x in if 0 <=? e then m * 2 ^ e else Z.quot m (2 ^ (- e)).

(* the value of a lane;
   helper for simd_x86.h 1381-1499, simd_builtin.h 1182-1213, 1656-1664 *)
Definition value (signed : bool) (w v : Z) : Z := if signed then sgn w v else v.
(* 1408: _Float has 24 bits of precision for 8- and 16-bit elements, 53 for 32 *)
Definition precision (w : Z) : Z := if w =? 32 then 53 else 24.
(* one lane of 1408-1465: convert, divide, convert back *)
Definition div_lane (up : rounding) (signed : bool) (w x y : Z) : Z :=
  let p := precision w in
  uns w (to_int (fdiv up p (of_int up p (value signed w x)) (of_int up p (value signed w y)))).
(* simd_builtin.h 1033-1056 (vector masks, bit = ~0: or with the complement of
   the implicit mask) and 1186-1203 (bit masks, bit = 1): __make_padding_nonzero
   for integers, an or with bit in the lanes from n on *)
Definition make_padding_nonzero (w : Z) (bitmask : bool) (n : nat) (y : list Z) : list Z :=
  map2 (fun i v => if Nat.ltb i n then v else Z.lor v (if bitmask then 1 else 2 ^ w - 1)) (seq 0 (length y)) y.
(* 1409-1421: the elements go into n_floatv registers of k floats, in order.
   Simplified: __convert_all and __vector_convert convert lane by lane and keep
   the order (they are the subject of C17). *)
Definition pieces (k m : nat) (l : list Z) : list (list Z) :=
  map (fun i => firstn k (skipn (i * k) l)) (seq 0 m).
(* simd_x86.h 1409-1421 *)
Definition div_roundup (a b : nat) : nat := ((a + b - 1) / b)%nat.
(* simd_x86.h 1409-1421 *)
Definition x86_divides (up : rounding) (signed bitmask : bool) (w : Z) (n regbytes : nat) (x y : list Z) : list Z :=
  let k := Nat.min n (regbytes / (if w =? 32 then 8 else 4)) in
  let m := div_roundup n k in
  let q := concat (map2 (map2 (div_lane up signed w)) (pieces k m x) (pieces k m (make_padding_nonzero w bitmask n y))) in
  (* 1418-1420: __vector_convert<_R>; lanes of the result behind the last
     quotient: taken as 0 *)
  q ++ repeat 0 (length x - length q).
(* simd_x86.h 1489-1499: x - y * (x / y); mul is _S_multiplies (1304-1379) *)
Definition x86_modulus (mul : list Z -> list Z -> list Z) (up : rounding) (signed bitmask : bool) (w : Z) (n regbytes : nat)
    (x y : list Z) : list Z :=
  map2 (fun a b => (a - b) mod 2 ^ w) x (mul y (x86_divides up signed bitmask w n regbytes x y)).
