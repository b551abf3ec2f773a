(* Integer operations of the scalar ABI, _SimdImplScalar (simd_scalar.h 36-51,
   196-291, 556-565), on the C++17 rules for integer operators (GCC, int of 32
   bits).  None is undefined behaviour.  Floating-point element types and bool
   are not modelled. *)
From Coq Require Import ZArith List Bool.
From Verif Require Import ScalarSpec.
Open Scope Z_scope.

(* ------------------------------------------------------------------ *)
(* C++17 [conv.integral]: conversion to type t; GCC: modulo 2^w for signed
   types, too; helper for simd_scalar.h 36-51, 196-291, 556-565 *)
Definition conv (t : ity) (v : Z) : Z :=
  let m := v mod 2 ^ iw t in
  if isg t && (2 ^ (iw t - 1) <=? m) then m - 2 ^ iw t else m.
(* simd_scalar.h 36-51, 196-291, 556-565 *)
Definition int_t : ity := {| iw := 32; isg := true |}.
(* simd_scalar.h 36-51, 196-291, 556-565 *)
Definition uint_t : ity := {| iw := 32; isg := false |}.
(* [conv.prom]: the type of +x; helper for simd_scalar.h 36-51, 196-291, 556-565 *)
Definition promoted (t : ity) : ity := if iw t <? 32 then int_t else t.
(* [expr]/4: a result that is not representable in a signed type is undefined;
   [basic.fundamental]: unsigned arithmetic is modulo 2^w;
   helper for simd_scalar.h 36-51, 196-291, 556-565 *)
Definition result_in (p : ity) (v : Z) : option Z :=
  if isg p then
    if (- 2 ^ (iw p - 1) <=? v) && (v <? 2 ^ (iw p - 1)) then Some v else None
  else Some (v mod 2 ^ iw p).
(* [expr.add], [expr.mul], bitwise operators: two operands of type t;
   helper for simd_scalar.h 36-51, 196-291, 556-565 *)
Definition c_arith (op : Z -> Z -> Z) (t : ity) (x y : Z) : option Z := result_in (promoted t) (op x y).
(* simd_scalar.h 36-51, 196-291, 556-565 *)
Definition c_div (op : Z -> Z -> Z) (t : ity) (x y : Z) : option Z :=
  if y =? 0 then None else
  (* the remainder is undefined if the quotient is *)
  match result_in (promoted t) (Z.quot x y) with Some _ => result_in (promoted t) (op x y) | None => None end.
(* [expr.shift]; helper for simd_scalar.h 36-51, 196-291, 556-565 *)
Definition c_shl (t : ity) (x n : Z) : option Z :=
  let p := promoted t in
  if (n <? 0) || (iw p <=? n) then None
  else if isg p then
    if x <? 0 then None else if x * 2 ^ n <? 2 ^ iw p then Some (conv p (x * 2 ^ n)) else None
  else Some ((x * 2 ^ n) mod 2 ^ iw p).
(* negative operands: GCC shifts arithmetically;
   helper for simd_scalar.h 36-51, 196-291, 556-565 *)
Definition c_shr (t : ity) (x n : Z) : option Z :=
  let p := promoted t in
  if (n <? 0) || (iw p <=? n) then None else Some (x / 2 ^ n).

(* ------------------------------------------------------------------ *)
(* simd_scalar.h 36-49: the type of __promote_preserving_unsigned(x) and its
   value *)
Definition ppu_type (t : ity) : ity := if isg (promoted t) && negb (isg t) then uint_t else t.
(* simd_scalar.h 36-49 *)
Definition ppu (t : ity) (x : Z) : Z := conv (ppu_type t) x.
(* static_cast<_Tp>(...); helper for simd_scalar.h 36-51, 196-291, 556-565 *)
Definition cast_to (t : ity) (r : option Z) : option Z := match r with Some v => Some (conv t v) | None => None end.

(* simd_scalar.h 201-203, 206-208 *)
Definition s_complement (t : ity) (x : Z) : option Z := cast_to t (c_arith (fun _ a => Z.lnot a) t 0 x).
(* simd_scalar.h 201-203, 206-208 *)
Definition s_unary_minus (t : ity) (x : Z) : option Z := cast_to t (c_arith Z.sub t 0 x).
(* simd_scalar.h 211-244 *)
Definition s_plus (t : ity) (x y : Z) : option Z := cast_to t (c_arith Z.add (ppu_type t) (ppu t x) (ppu t y)).
(* simd_scalar.h 211-244 *)
Definition s_minus (t : ity) (x y : Z) : option Z := cast_to t (c_arith Z.sub (ppu_type t) (ppu t x) (ppu t y)).
(* simd_scalar.h 211-244 *)
Definition s_multiplies (t : ity) (x y : Z) : option Z := cast_to t (c_arith Z.mul (ppu_type t) (ppu t x) (ppu t y)).
(* simd_scalar.h 211-244 *)
Definition s_divides (t : ity) (x y : Z) : option Z := cast_to t (c_div Z.quot (ppu_type t) (ppu t x) (ppu t y)).
(* simd_scalar.h 211-244 *)
Definition s_modulus (t : ity) (x y : Z) : option Z := cast_to t (c_div Z.rem (ppu_type t) (ppu t x) (ppu t y)).
(* simd_scalar.h 246-283, the integer branches *)
Definition s_bit_and (t : ity) (x y : Z) : option Z := cast_to t (c_arith Z.land (ppu_type t) (ppu t x) (ppu t y)).
(* simd_scalar.h 246-283 *)
Definition s_bit_or (t : ity) (x y : Z) : option Z := cast_to t (c_arith Z.lor (ppu_type t) (ppu t x) (ppu t y)).
(* simd_scalar.h 246-283 *)
Definition s_bit_xor (t : ity) (x y : Z) : option Z := cast_to t (c_arith Z.lxor (ppu_type t) (ppu t x) (ppu t y)).
(* simd_scalar.h 285-291 *)
Definition s_shift_left (t : ity) (x n : Z) : option Z := cast_to t (c_shl (ppu_type t) (ppu t x) n).
(* simd_scalar.h 285-291 *)
Definition s_shift_right (t : ity) (x n : Z) : option Z := cast_to t (c_shr (ppu_type t) (ppu t x) n).
(* simd_scalar.h 556-564: ++__x and --__x on the element itself *)
Definition s_increment (t : ity) (x : Z) : option Z := cast_to t (c_arith Z.add t x 1).
(* simd_scalar.h 556-564 *)
Definition s_decrement (t : ity) (x : Z) : option Z := cast_to t (c_arith Z.sub t x 1).
