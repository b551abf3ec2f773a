(* Model of the test whether a conversion between arithmetic types may change
   values, and of the constructors it guards.
   /repo/experimental/bits/simd.h 736-777, 929-943, 4921-4940, 4957-4960 and
   numeric_traits.h 36-60, 234-275.  Types are given by width and signedness,
   so types like long and long long of the same size are not told apart; all
   tests below treat them alike, except __converts_to_higher_integer_rank.
   Source types that are not arithmetic (simd.h 764) are not modelled. *)
From Coq Require Import ZArith List Bool.
From Verif Require Import Prelude Abi Fixed Mem FloatSpec FloatRoundSpec FloatBits FloatArith ScalarSpec Scalar NarrowSpec.
Open Scope Z_scope.

(* ------------------------------------------------------------------ *)
(* C++17 [conv]: conversions between arithmetic types *)
(* [conv.double]: floating-point to floating-point, in rounding direction md;
   helper for simd.h 736-777, 929-943, 4921-4940, 4957-4960 *)
Definition fconv (f g : fmt) (md : rmode) (x : Z) : Z :=
  match decode f x with
  | DNaN => nan_bits g
  | DInf s => with_sign g s (inf_bits g)
  | DFin s m =>
      if unit f <=? unit g then fround g md s (num s m * 2 ^ (unit g - unit f)) 0
      else fround g md s (num s m) (unit f - unit g)
  end.
(* [conv.fpint]: truncation; undefined (None) if the type does not have it;
   helper for simd.h 736-777, 929-943, 4921-4940, 4957-4960 *)
Definition fto_int (f : fmt) (t : ity) (x : Z) : option Z :=
  match decode f x with
  | DFin s m =>
      let v := num s (m / one f) in
      if isg t then if (- 2 ^ (iw t - 1) <=? v) && (v <? 2 ^ (iw t - 1)) then Some v else None
      else if (0 <=? v) && (v <? 2 ^ iw t) then Some v else None
  | _ => None
  end.
(* [conv.bool]: zero gives false, anything else true;
   helper for simd.h 736-777, 929-943, 4921-4940, 4957-4960 *)
Definition fto_bool (f : fmt) (x : Z) : Z :=
  match decode f x with DFin _ m => if m =? 0 then 0 else 1 | _ => 1 end.
(* static_cast<to>(x) for x of type from;
   helper for simd.h 736-777, 929-943, 4921-4940, 4957-4960 *)
Definition cast (l : fmt) (md : rmode) (from to : aty) (x : Z) : option Z :=
  match from, to with
  | (ABool | AInt _), ABool => Some (if x =? 0 then 0 else 1)
  | (ABool | AInt _), AInt t => Some (conv t x)
  | (ABool | AInt _), AFloat t => Some (fof_int (format l t) md x)
  | AFloat s, ABool => Some (fto_bool (format l s) x)
  | AFloat s, AInt t => fto_int (format l s) t x
  | AFloat s, AFloat t => Some (fconv (format l s) (format l t) md x)
  end.
(* [expr]/11: the usual arithmetic conversions; bool is promoted to int;
   helper for simd.h 736-777, 929-943, 4921-4940, 4957-4960 *)
Definition promoted_a (t : aty) : ity :=
  match t with ABool => int_t | AInt t => promoted t | AFloat _ => int_t end.
(* simd.h 736-777, 929-943, 4921-4940, 4957-4960, numeric_traits.h 36-60, 234-275 *)
Definition frank (t : ftype) : Z := match t with FFloat => 0 | FDouble => 1 | FLongDouble => 2 end.
(* simd.h 736-777, 929-943, 4921-4940, 4957-4960, numeric_traits.h 36-60, 234-275 *)
Definition common (a b : aty) : aty :=
  match a, b with
  | AFloat s, AFloat t => if frank s <=? frank t then b else a
  | AFloat _, _ => a
  | _, AFloat _ => b
  | _, _ =>
      let p := promoted_a a in let q := promoted_a b in
      if Bool.eqb (isg p) (isg q) then AInt {| iw := Z.max (iw p) (iw q); isg := isg p |}
      else let s := if isg p then p else q in let u := if isg p then q else p in
           (* rank of the unsigned operand at least that of the signed one;
              otherwise the wider signed type has all its values *)
           if iw s <=? iw u then AInt u else AInt s
  end.
(* x < y for operands of types a and b (constant expressions: to nearest);
   helper for simd.h 736-777, 929-943, 4921-4940, 4957-4960 *)
Definition c_less (l : fmt) (a : aty) (x : Z) (b : aty) (y : Z) : bool :=
  let c := common a b in
  match cast l ToNearest a c x, cast l ToNearest b c y with
  | Some u, Some v =>
      match c with
      | AFloat t => less (decode (format l t) u) (decode (format l t) v)
      | _ => u <? v
      end
  | _, _ => false
  end.

(* ------------------------------------------------------------------ *)
(* is_signed_v, is_unsigned_v ([meta.unary.prop]: T(-1) < T(0));
   helper for simd.h 736-777, 929-943, 4921-4940, 4957-4960 *)
Definition is_signed (t : aty) : bool := match t with ABool => false | AInt t => isg t | AFloat _ => true end.
(* simd.h 736-777, 929-943, 4921-4940, 4957-4960, numeric_traits.h 36-60, 234-275 *)
Definition is_unsigned (t : aty) : bool := match t with ABool => true | AInt t => negb (isg t) | AFloat _ => false end.
(* numeric_traits.h 36-58: __digits_impl (sizeof(bool) is 1) *)
Definition digits (l : fmt) (t : aty) : Z :=
  match t with
  | ABool => 8
  | AInt t => iw t - (if isg t then 1 else 0)
  | AFloat t => fp (format l t)
  end.
(* numeric_traits.h 234-255: __finite_min_impl: _Tp() or
   -2 * (_Tp(1) << digits - 1), converted to _Tp *)
Definition finite_min (l : fmt) (t : aty) : Z :=
  match t with
  | ABool => 0
  | AInt i => if isg i then conv i (-2 * 2 ^ (digits l t - 1)) else 0
  | AFloat t => with_sign (format l t) true (finite_max_bits (format l t))
  end.
(* numeric_traits.h 257-274: __finite_max_impl: ~finite_min, converted to _Tp *)
Definition finite_max (l : fmt) (t : aty) : Z :=
  match t with
  | ABool => if Z.lnot 0 =? 0 then 0 else 1
  | AInt i => conv i (Z.lnot (finite_min l t))
  | AFloat t => finite_max_bits (format l t)
  end.

(* numeric_traits.h 257-274 *)
Definition ity_eqb (a b : ity) : bool := (iw a =? iw b) && Bool.eqb (isg a) (isg b).
(* numeric_traits.h 257-274 *)
Definition aty_eqb (a b : aty) : bool :=
  match a, b with
  | ABool, ABool => true
  | AInt a, AInt b => ity_eqb a b
  | AFloat a, AFloat b => frank a =? frank b
  | _, _ => false
  end.

(* simd.h 736-762: __is_narrowing_conversion with its specialisations for bool
   and for equal types *)
Definition narrowing (l : fmt) (from to : aty) : bool :=
  if aty_eqb from to then false
  else match to with
  | ABool => true
  | _ =>
      (digits l to <? digits l from)
      || c_less l to (finite_max l to) from (finite_max l from)
      || c_less l from (finite_min l from) to (finite_min l to)
      || (is_signed from && is_unsigned to)
  end.

(* simd.h 736-762 *)
Definition int_a : aty := AInt int_t.
(* simd.h 736-762 *)
Definition uint_a : aty := AInt uint_t.
(* simd.h 930-933: _ValuePreserving, which guards simd_cast (2912-2925) *)
Definition value_preserving (l : fmt) (from to : aty) : bool := negb (narrowing l from to).
(* simd.h 935-943: _ValuePreservingOrInt.  is_convertible holds for all
   arithmetic types *)
Definition value_preserving_or_int (l : fmt) (from to : aty) : bool :=
  aty_eqb from to || aty_eqb from int_a || (aty_eqb from uint_a && is_unsigned to)
  || negb (narrowing l from to).
(* simd.h 4922-4925: the broadcast constructor accepts a value of this type *)
Definition broadcast_from (l : fmt) (from to : aty) : bool :=
  negb (aty_eqb from ABool) && value_preserving_or_int l from to.
(* simd.h 768-775: __converts_to_higher_integer_rank; the type of
   declval<_From>() + declval<_To>() is the common type *)
Definition sizeof (ls : Z) (t : aty) : Z :=
  match t with ABool => 1 | AInt t => iw t / 8 | AFloat FFloat => 4 | AFloat FDouble => 8 | AFloat FLongDouble => ls end.
(* simd.h 768-775 *)
Definition higher_rank (ls : Z) (from to : aty) : bool :=
  if sizeof ls from <? sizeof ls to then true else aty_eqb (common from to) to.
(* simd.h 4931-4941: the implicit conversion between fixed_size vectors exists *)
Definition fixed_from (l : fmt) (ls : Z) (from to : aty) : bool :=
  negb (narrowing l from to) && higher_rank ls from to.

(* simd.h 4926-4928: broadcast: value_type(x) in every lane *)
Definition broadcast_ctor (l : fmt) (md : rmode) (from to : aty) (n : nat) (x : Z) : option (list Z) :=
  option_map (fun v => repeat v n) (cast l md from to x).

(* the element type as the storage selection sees it;
   helper for simd.h 736-777, 929-943, 4921-4940, 4957-4960 *)
Definition elem_of (ls : nat) (t : aty) : option elem :=
  match t with
  | ABool => None
  | AInt t => Some (TInt (Z.to_nat (iw t / 8)))
  | AFloat FFloat => Some TFloat
  | AFloat FDouble => Some TDouble
  | AFloat FLongDouble => Some (TLongDouble ls)
  end.
(* simd.h 4942: x is stored to an array of n elements of its own type (tmp: its
   uninitialized contents), which is then loaded with conversion.  A conversion
   with undefined behaviour is given the value 0 here; the theorem shows that
   there is none. *)
Definition fixed_convert (I : isa) (x86 : bool) (l : fmt) (md : rmode) (from to : aty) (te : elem)
    (n : nat) (s : shape) (tmp : nat -> Z) (x : tuple Z) : option (tuple Z) :=
  match fs_store (reg_store x86 I te true (fun v => v)) 0%nat x
          (fun j => if (j <? n)%nat then Some (tmp j) else None) with
  | Some m =>
      fs_load (reg_load I te false
                 (fun v => match cast l md from to v with Some w => w | None => 0 end) 0 0) s 0%nat m
  | None => None
  end.
