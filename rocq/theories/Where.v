(* Assignments through where expressions, for values and masks in one register:
   where_expression (simd.h 3064-3340), _S_masked_assign, _S_masked_cassign and
   _S_masked_unary (simd_builtin.h 2454-2535, 2864-2888; simd_scalar.h 595-613,
   709-715; simd_x86.h 4851-4873), _S_blend (simd_builtin.h 1363-1370, simd_x86.h
   617-822).  fixed_size does the same register by register (Fixed.v); division of
   integers is in IntDiv.v, masked loads and stores in Mem.v and BoolLoad.v. *)
From Coq Require Import List ZArith Bool String.
From Verif Require Import Prelude Fixed MaskSpec BitMask KMask X86Lanes X86Div ScalarSpec Scalar FloatSpec FloatRoundSpec FloatBits FloatArith Padding X86Mask.
Import ListNotations.
Local Open Scope Z_scope.

(* simd.h 3223-3232: the member of the implementation that where(k, v) op= y
   calls *)
Inductive wop := WPlus | WMinus | WTimes | WDivide | WModulus | WAnd | WOr | WXor | WShiftLeft | WShiftRight.
(* simd.h 3223-3232 *)
Definition where_member (o : wop) : string :=
  match o with
  | WPlus => "_S_plus" | WMinus => "_S_minus" | WTimes => "_S_multiplies"
  | WDivide => "_S_divides" | WModulus => "_S_modulus"
  | WAnd => "_S_bit_and" | WOr => "_S_bit_or" | WXor => "_S_bit_xor"
  | WShiftLeft => "_S_shift_left" | WShiftRight => "_S_shift_right"
  end.
(* the binary operators that an implementation has: simd_builtin.h 1643-1731,
   simd_scalar.h 209-291, simd_fixed_size.h 1543-1573 *)
Definition impl_members : list string :=
  ["_S_plus"; "_S_minus"; "_S_multiplies"; "_S_divides"; "_S_modulus"; "_S_bit_and"; "_S_bit_or";
   "_S_bit_xor"; "_S_bit_shift_left"; "_S_bit_shift_right"]%string.
(* simd.h 4745-4896 (_SimdIntOperators) and 5050-5083: the member that v op= y calls *)
Definition plain_member (o : wop) : string :=
  match o with
  | WShiftLeft => "_S_bit_shift_left" | WShiftRight => "_S_bit_shift_right"
  | o => where_member o
  end.
(* simd.h 4745-4896, 5050-5083 *)
Definition compiles (member : wop -> string) (o : wop) : bool := existsb (String.eqb (member o)) impl_members.

(* a mask in a vector register, or in an AVX-512 mask register;
   helper for simd.h 3064-3340, simd_builtin.h 2454-2535, 2864-2888, simd_scalar.h 595-613 *)
Inductive wmask := VMask (k : list Z) | BMask (k : Z).

(* simd.h 2389-2411: __active_mask.  ~_BuiltinType() is an int if _BuiltinType has 8
   or 16 bits; shifting the int -1 to the right does not change it *)
Definition active_mask (n : nat) : Z :=
  if (kw n <=? 16)%nat then 2 ^ Z.of_nat (kw n) - 1 else (2 ^ Z.of_nat (kw n) - 1) / 2 ^ Z.of_nat (kw n - n).
(* simd.h 2389-2411, 2530-2566: cp is what __builtin_constant_p answers *)
Definition constprop_none_of (cp : bool) (s : shape) (k : wmask) : bool :=
  cp && match k with
        | VMask l => forallb (fun v => v =? 0) (firstn (sn s) l)
        | BMask w => Z.land w (active_mask (sn s)) =? 0
        end.
(* simd.h 2389-2411, 2530-2566 *)
Definition constprop_all_of (cp : bool) (s : shape) (k : wmask) : bool :=
  cp && match k with
        | VMask l => forallb (fun v => v =? ones s) (firstn (sn s) l)
        | BMask w => Z.land w (active_mask (sn s)) =? active_mask (sn s)
        end.

(* how _S_blend works on vector masks: k ? at1 : at0 of vectors (simd_builtin.h
   1363-1370); and, andnot, or (simd_x86.h 800, 817); pblendvb, blendvps, blendvpd, which look at the
   sign of every group of g bits (simd_x86.h 701-757); conversion to a mask
   register (simd_x86.h 803-808) *)
Inductive style := Conditional | Bitwise | Signs (g : Z) | ToBits (packs : bool).
(* simd_builtin.h 1363-1370, simd_x86.h 800, 817, 701-757, 803-808 *)
Fixpoint by_signs (groups : nat) (g k a b : Z) : Z :=
  match groups with
  | O => 0
  | S c => (if Z.testbit k (g - 1) then b mod 2 ^ g else a mod 2 ^ g)
           + 2 ^ g * by_signs c g (k / 2 ^ g) (a / 2 ^ g) (b / 2 ^ g)
  end.
(* simd_builtin.h 1363-1370, simd_x86.h 800, 817, 701-757, 803-808 *)
Definition lane_bitwise (k a b : Z) : Z := Z.lor (Z.land (Z.lnot k) a) (Z.land k b).
(* simd_builtin.h 1363-1370, simd_x86.h 760-822: _S_blend(k, at0, at1).  cst: all
   three are constants *)
Definition blend (y : style) (cst : bool) (s : shape) (k : wmask) (at0 at1 : list Z) : list Z :=
  match k with
  | VMask m =>
      if cst then map3 lane_bitwise m at0 at1
      else match y with
           | Conditional => map3 (fun k a b => if k =? 0 then a else b) m at0 at1
           | Bitwise => map3 lane_bitwise m at0 at1
           | Signs g => map3 (by_signs (Z.to_nat (lw s / g)) g) m at0 at1
           | ToBits packs => bits_blend (x86_to_bits packs s m) at0 at1
           end
  | BMask w =>
      if cst then map3 (fun (i : nat) v0 v1 => if k_get w i then v1 else v0) (seq 0 (sn s)) at0 at1 ++ repeat 0 (st s - sn s)
      else bits_blend w at0 at1
  end.

(* simd.h 1661-1669: __vector_broadcast<_Np>(x) *)
Definition vbroadcast (s : shape) (x : Z) : list Z := repeat x (sn s) ++ repeat 0 (st s - sn s).

(* what the compiler knows when it compiles the expression: that the mask is
   constant, that the right-hand side (a scalar) is constant, and that all operands
   of the blend are;
   helper for simd.h 3064-3340, simd_builtin.h 2454-2535, 2864-2888, simd_scalar.h 595-613 *)
Record knowledge := { kn_mask : bool; kn_rhs : bool; kn_blend : bool }.

(* element types: integers, floating point;
   helper for simd.h 3064-3340, simd_builtin.h 2454-2535, 2864-2888, simd_scalar.h 595-613 *)
Inductive elt := EInt (signed : bool) | EFloat (f : fmt).
(* rhs == 0 in simd_builtin.h 2477 *)
Definition equals_zero (t : elt) (v : Z) : bool :=
  match t with EInt _ => v =? 0 | EFloat f => feq f v 0 end.

(* simd_builtin.h 2455-2466: _S_masked_assign, the right-hand side is a simd *)
Definition masked_assign (y : style) (c : knowledge) (s : shape) (k : wmask) (lhs rhs : list Z) : list Z :=
  if constprop_none_of (kn_mask c) s k then lhs
  else if constprop_all_of (kn_mask c) s k then rhs
  else blend y (kn_blend c) s k lhs rhs.
(* simd_builtin.h 2468-2493: _S_masked_assign, the right-hand side is a scalar *)
Definition masked_assign_scalar (y : style) (c : knowledge) (t : elt) (s : shape) (k : wmask) (lhs : list Z) (v : Z) : list Z :=
  if constprop_none_of (kn_mask c) s k then lhs
  else if constprop_all_of (kn_mask c) s k then vbroadcast s v
  else if kn_rhs c && equals_zero t v then
    match k with
    | VMask m => map2 (fun k a => Z.land (Z.lnot k) a) m lhs
    | BMask _ => blend y (kn_blend c) s k lhs (repeat 0 (st s))
    end
  else blend y (kn_blend c) s k lhs (vbroadcast s v).
(* simd_builtin.h 2495-2510: _S_masked_cassign; op: what the operator does with the
   registers, None if that is undefined *)
Definition masked_cassign (op : list Z -> list Z -> option (list Z)) (y : style) (c : knowledge) (s : shape) (k : wmask)
    (lhs rhs : list Z) : option (list Z) :=
  if constprop_none_of (kn_mask c) s k then Some lhs
  else match op lhs rhs with
       | Some r => Some (if constprop_all_of (kn_mask c) s k then r else blend y (kn_blend c) s k lhs r)
       | None => None
       end.
(* simd_builtin.h 2512-2517: with a scalar *)
Definition masked_cassign_scalar op y c s k lhs (v : Z) : option (list Z) :=
  masked_cassign op y c s k lhs (vbroadcast s v).
(* simd_builtin.h 2519-2535: _S_masked_unary *)
Definition masked_unary (op : list Z -> option (list Z)) (y : style) (c : knowledge) (s : shape) (k : wmask)
    (v : list Z) : option (list Z) :=
  if constprop_none_of (kn_mask c) s k then Some v
  else match op v with
       | Some r => Some (if constprop_all_of (kn_mask c) s k then r else blend y (kn_blend c) s k v r)
       | None => None
       end.

(* Vector operators of GCC: on all lanes; signed overflow in any lane is
   undefined;
   helper for simd.h 3064-3340, simd_builtin.h 2454-2535, 2864-2888, simd_scalar.h 595-613 *)
Definition lanewise1 (f : Z -> option Z) (x : list Z) : option (list Z) := omapm f x.
(* simd_builtin.h 2519-2535 *)
Definition lanewise2 (f : Z -> Z -> option Z) (x y : list Z) : option (list Z) :=
  omapm (fun p => f (fst p) (snd p)) (combine x y).
(* simd_builtin.h 2519-2535 *)
Definition int_result (signed : bool) (w v : Z) : option Z :=
  if signed && ((v <? - 2 ^ (w - 1)) || (2 ^ (w - 1) <=? v)) then None else Some (uns w v).
(* simd_builtin.h 1643-1664, 1690-1702: _S_plus, _S_minus, _S_multiplies,
   _S_bit_and, _S_bit_or, _S_bit_xor of integers; op: the operation on numbers *)
Definition int_lane2 (op : Z -> Z -> Z) (signed : bool) (w x y : Z) : option Z :=
  int_result signed w (op (value signed w x) (value signed w y)).
(* simd_builtin.h 1634-1640, 2437-2446: -x, ++x, --x *)
Inductive uop := UNegate | UIncrement | UDecrement.
(* simd_builtin.h 1634-1640, 2437-2446 *)
Definition unary_value (u : uop) (v : Z) : Z :=
  match u with UNegate => - v | UIncrement => v + 1 | UDecrement => v - 1 end.
(* simd_builtin.h 1634-1640, 2437-2446 *)
Definition int_lane1 (u : uop) (signed : bool) (w x : Z) : option Z :=
  int_result signed w (unary_value u (value signed w x)).
(* simd_builtin.h 1634-1640, 2437-2446 *)
Definition float_lane1 (u : uop) (f : fmt) (md : rmode) (x : Z) : option Z :=
  Some (match u with
        | UNegate => fneg f x
        | UIncrement => fadd f md x (one_bits f)
        | UDecrement => fsub f md x (one_bits f)
        end).
(* simd_builtin.h 1634-1640, 2437-2446 *)
Definition float_lane2 (op : fmt -> rmode -> Z -> Z -> Z) (f : fmt) (md : rmode) (x y : Z) : option Z := Some (op f md x y).

(* simd_scalar.h 595-613 and where_expression<bool, T> (simd.h 3134-3165,
   3272-3320): one element *)
Definition scalar_masked_assign (k : bool) (lhs rhs : Z) : Z := if k then rhs else lhs.
(* simd_scalar.h 595-613, simd.h 3134-3165, 3272-3320 *)
Definition scalar_masked_cassign (op : Z -> Z -> option Z) (k : bool) (lhs rhs : Z) : option Z := if k then op lhs rhs else Some lhs.
(* simd_scalar.h 595-613, simd.h 3134-3165, 3272-3320 *)
Definition scalar_masked_unary (op : Z -> option Z) (k : bool) (v : Z) : option Z := if k then op v else Some v.
(* simd_scalar.h 595-613, simd.h 3134-3165, 3272-3320 *)
Definition scalar_unary (u : uop) (t : ity) (v : Z) : option Z :=
  match u with UNegate => s_unary_minus t v | UIncrement => s_increment t v | UDecrement => s_decrement t v end.

(* where(k, mask) = mask (simd_builtin.h 2864-2870, simd_x86.h 4851-4861) *)
Definition mask_masked_assign (y : style) (cst : bool) (s : shape) (k lhs rhs : wmask) : option wmask :=
  match k, lhs, rhs with
  | VMask m, VMask a, VMask b => Some (VMask (blend y cst s k a b))
  | BMask m, BMask a, BMask b => Some (BMask (k_assign (sn s) m a b))
  | _, _, _ => None
  end.
(* where(k, mask) = bool (simd_builtin.h 2872-2888, simd_x86.h 4862-4872); c: the
   compiler knows the bool *)
Definition mask_masked_assign_bool (y : style) (c cst : bool) (s : shape) (k lhs : wmask) (x : bool) : option wmask :=
  match k, lhs with
  | VMask m, VMask a =>
      Some (VMask (if c then (if x then map2 Z.lor m a else map2 (fun k a => Z.land (Z.lnot k) a) m a)
                   else blend y cst s k a (if x then vec_implicit s else repeat 0 (st s))))
  | BMask m, BMask a => Some (BMask (k_assign_bool (sn s) m a x))
  | _, _ => None
  end.
