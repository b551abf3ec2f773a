(* Integer division of vectors without the floating-point detour: _S_divides and
   _S_modulus of _SimdImplBuiltin (simd_builtin.h 1667-1688), used for every
   integer on targets other than x86, and on x86 for 8-byte integers and for
   divisors the compiler knows; compound assignment through where.

   GCC divides all lanes of a register.  A division by zero or the division of
   the smallest number by -1 in any lane is undefined (x86: SIGFPE): None. *)
From Coq Require Import List ZArith Bool Arith.
From Verif Require Import Prelude X86Lanes X86Div.
Import ListNotations.
Local Open Scope Z_scope.

(* one lane of the vector operators / and %; helper for simd_builtin.h 1667-1688 *)
Definition lane_undef (signed : bool) (w x y : Z) : bool :=
  (y =? 0) || (signed && (x =? 2 ^ (w - 1)) && (y =? 2 ^ w - 1)).
(* simd_builtin.h 1667-1688 *)
Definition lane_div (signed : bool) (w x y : Z) : Z :=
  uns w (Z.quot (value signed w x) (value signed w y)).
(* simd_builtin.h 1667-1688 *)
Definition lane_rem (signed : bool) (w x y : Z) : Z :=
  uns w (Z.rem (value signed w x) (value signed w y)).
(* simd_builtin.h 1667-1688 *)
Definition vec_divide (f : Z -> Z -> Z) (signed : bool) (w : Z) (x y : list Z) : option (list Z) :=
  if existsb (fun p => lane_undef signed w (fst p) (snd p)) (combine x y) then None
  else Some (map2 f x y).

(* simd_builtin.h 1667-1677: _S_divides; n elements in a register of length y
   lanes; bitmask: AVX-512 ABI *)
Definition base_divides (signed bitmask : bool) (w : Z) (n : nat) (x y : list Z) : option (list Z) :=
  vec_divide (lane_div signed w) signed w x
    (if (n <? length y)%nat then make_padding_nonzero w bitmask n y else y).
(* simd_builtin.h 1679-1688: _S_modulus *)
Definition base_modulus (signed bitmask : bool) (w : Z) (n : nat) (x y : list Z) : option (list Z) :=
  vec_divide (lane_rem signed w) signed w x
    (if (n <? length y)%nat then make_padding_nonzero w bitmask n y else y).

(* simd_builtin.h 1409-1413: _S_broadcast fills the whole register *)
Definition broadcast (lanes : nat) (v : Z) : list Z := repeat v lanes.
(* simd_builtin.h 2449-2452: _S_set *)
Definition set_lane (x : list Z) (i : nat) (v : Z) : list Z := upd x i v.

(* what the optimiser knows about the mask: simd_builtin.h 2502-2504,
   simd.h 2400-2420 and 2530-2560 (_M_is_constprop_none_of, _all_of) *)
Inductive known := KnownNone | KnownAll | Unknown.
(* simd_builtin.h 1364-1371 and simd_x86.h 763-820: _S_blend(k, at0, at1), lane
   by lane *)
Definition blend (k : list bool) (at0 at1 : list Z) : list Z :=
  map3 (fun (b : bool) v0 v1 => if b then v1 else v0) k at0 at1.
(* simd_builtin.h 2495-2510: _S_masked_cassign *)
Definition masked_cassign (op : list Z -> list Z -> option (list Z)) (kn : known)
    (k : list bool) (lhs rhs : list Z) : option (list Z) :=
  match kn with
  | KnownNone => Some lhs
  | KnownAll => op lhs rhs
  | Unknown => match op lhs rhs with Some r => Some (blend k lhs r) | None => None end
  end.

(* simd_scalar.h 601-608: _S_masked_cassign of the scalar ABI, with / or % (f) *)
Definition scalar_masked_cassign (f : Z -> Z -> Z) (signed : bool) (w : Z) (k : bool) (lhs rhs : Z) : option Z :=
  if k then (if lane_undef signed w lhs rhs then None else Some (f lhs rhs)) else Some lhs.

(* simd_x86.h 1386-1499 through _S_masked_cassign, run-time operands of at most 4
   bytes: the quotients come from floating-point lanes, no lane is undefined *)
Definition x86_masked_divides (up : rounding) (signed bitmask : bool) (w : Z) (n regbytes : nat)
    (kn : known) (k : list bool) (lhs rhs : list Z) : option (list Z) :=
  masked_cassign (fun x y => Some (x86_divides up signed bitmask w n regbytes x y)) kn k lhs rhs.
(* simd_x86.h 1386-1499 *)
Definition x86_masked_modulus (mul : list Z -> list Z -> list Z) (up : rounding) (signed bitmask : bool) (w : Z)
    (n regbytes : nat) (kn : known) (k : list bool) (lhs rhs : list Z) : option (list Z) :=
  masked_cassign (fun x y => Some (x86_modulus mul up signed bitmask w n regbytes x y)) kn k lhs rhs.
