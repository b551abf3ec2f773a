(* Lanes of x86 registers.  A register is the list of its lanes; a lane of w
   bits is its unsigned value 0 <= v < 2^w.  Viewing a register with wider or
   narrower lanes (__vector_bitcast, simd.h 1550-1571; __intrin_bitcast
   1506-1548) joins or cuts lanes, lowest lane first (little endian). *)
From Coq Require Import ZArith List Bool.
From Verif Require Import Prelude.
Import ListNotations.
Open Scope Z_scope.

(* simd.h 1550-1571 (__vector_bitcast to lanes of twice the width) *)
Fixpoint join (w : Z) (l : list Z) : list Z :=
  match l with
  | a :: b :: r => (a + 2 ^ w * b) :: join w r
  | _ => []
  end.
(* simd.h 1550-1571 (__vector_bitcast to lanes of half the width) *)
Fixpoint cut (w : Z) (l : list Z) : list Z :=
  match l with
  | c :: r => (c mod 2 ^ w) :: (c / 2 ^ w) :: cut w r
  | [] => []
  end.
(* bytes seen as unsigned int and back; helper for simd_x86.h 1304-2208 *)
Definition as32 (l : list Z) : list Z := join 16 (join 8 l).
(* simd.h 1550-1571 *)
Definition as8 (l : list Z) : list Z := cut 8 (cut 16 l).

(* two's complement value of a lane, and back; helper for simd_x86.h 1304-2208 *)
Definition sgn (w v : Z) : Z := if v <? 2 ^ (w - 1) then v else v - 2 ^ w.
(* simd_x86.h 1304-2208 *)
Definition uns (w v : Z) : Z := v mod 2 ^ w.

(* Shift operators of GCC vectors: operands are not promoted, and a count that
   is not less than the lane width is undefined (GCC manual, Vector
   Extensions).  oob gives the value in that case; theorems quantify over it
   or fix the value the machine instructions produce. Helper for simd_x86.h 1304-2208 *)
Definition oob_t := Z -> Z -> Z -> Z.
(* simd_x86.h 1304-2208 *)
Definition vshl (oob : oob_t) (w k a : Z) : Z := if k <? w then (a * 2 ^ k) mod 2 ^ w else oob w k a.
(* simd_x86.h 1304-2208 *)
Definition vshr (oob : oob_t) (w k a : Z) : Z := if k <? w then a / 2 ^ k else oob w k a.
(* simd_x86.h 1304-2208 *)
Definition vsar (oob : oob_t) (w k a : Z) : Z :=
  if k <? w then uns w (sgn w a / 2 ^ k) else oob w k a.

(* psll, psrl, psra and the variable-count psllv, psrlv, psrav: a count of w or
   more gives 0, 0, and all sign bits; helper for simd_x86.h 1304-2208 *)
Definition psll (w k a : Z) : Z := if k <? w then (a * 2 ^ k) mod 2 ^ w else 0.
(* simd_x86.h 1304-2208 *)
Definition psrl (w k a : Z) : Z := if k <? w then a / 2 ^ k else 0.
(* simd_x86.h 1304-2208 *)
Definition psra (w k a : Z) : Z :=
  if k <? w then uns w (sgn w a / 2 ^ k) else if 2 ^ (w - 1) <=? a then 2 ^ w - 1 else 0.

(* lane-wise +, * (modulo 2^w); helper for simd_x86.h 1304-2208 *)
Definition padd (w a b : Z) : Z := (a + b) mod 2 ^ w.
(* simd_x86.h 1304-2208 *)
Definition pmul (w a b : Z) : Z := (a * b) mod 2 ^ w.
(* v ? b : a on the most significant bit: pblendvb; (signed v) < 0 ? b : a;
   helper for simd_x86.h 1304-2208 *)
Definition msb (w v : Z) : bool := Z.testbit v (w - 1).
(* simd_x86.h 1304-2208 *)
Definition blendv (w : Z) (m a b : list Z) : list Z :=
  map3 (fun k x y => if msb w k then y else x) m a b.
(* lanes alternately from a (even lanes) and b (odd lanes): pblendw with 0xaa,
   vpblendmb with 0xaaaa... Helper for simd_x86.h 1304-2208 *)
Fixpoint blend_aa (a b : list Z) : list Z :=
  match a, b with
  | x0 :: _ :: a', _ :: y1 :: b' => x0 :: y1 :: blend_aa a' b'
  | _, _ => []
  end.
(* pmovsx, pmovzx, truncating pmov; helper for simd_x86.h 1304-2208 *)
Definition sext (w w' : Z) (l : list Z) : list Z := map (fun a => uns w' (sgn w a)) l.
(* simd_x86.h 1304-2208 *)
Definition zext (l : list Z) : list Z := l.
(* simd_x86.h 1304-2208 *)
Definition trunc_to (w : Z) (l : list Z) : list Z := map (fun a => a mod 2 ^ w) l.

(* cvttps2dq of the float with bit pattern b (also the value x86 gives for
   static_cast<int>(float), which is undefined when out of range): truncation,
   0x80000000 for NaN and out of range; helper for simd_x86.h 1304-2208 *)
Definition cvttps (b : Z) : Z :=
  let e := (b / 2 ^ 23) mod 2 ^ 8 in
  let m := if e =? 0 then b mod 2 ^ 23 else b mod 2 ^ 23 + 2 ^ 23 in
  let t := if 150 <=? e then m * 2 ^ (e - 150) else m / 2 ^ (150 - e) in
  let v := if b / 2 ^ 31 =? 0 then t else - t in
  if (e =? 255) || (v <? - 2 ^ 31) || (2 ^ 31 <=? v) then 2 ^ 31 else uns 32 v.
