(* Model of + - * / sqrt and of the rounding functions of a fixed_size simd of
   float or double: /repo/experimental/bits/simd_fixed_size.h 1529-1557 and
   1574-1670, on the registers of ArithOps.v and FloatRound.v.  [std] and
   [std_sqrt] are the functions of <cmath>, called for an element that is held as
   a scalar (simd_scalar.h 398-400, 422-453).  Not modelled: long double. *)
From Coq Require Import ZArith List Bool Arith.
From Verif Require Import Prelude X86Lanes Fixed FloatSpec FloatRoundSpec FloatBits FloatArith FloatRound Hypot SinCos ArithOps.
Import ListNotations.
Local Open Scope nat_scope.

(* the operators of simd_fixed_size.h 1544-1547 *)
Inductive arith := APlus | AMinus | AMultiplies | ADivides.

(* one register: simd_builtin.h 1651-1677; one scalar: simd_scalar.h 210-237.
   bitmask m: the mask of a register of m elements is a bit mask (AVX-512) *)
Definition arith_chunk (bitmask : nat -> bool) (op : arith) (f : fmt) (md : rmode) (m : nat) (x : list Z) (more : list (list Z)) : list Z :=
  let y := hd x more in
  match op with
  | APlus => plus_reg f md x y
  | AMinus => minus_reg f md x y
  | AMultiplies => multiplies_reg f md x y
  | ADivides => if m =? 1 then map2 (SinCos.fdiv f md) x y else divides_reg (bitmask m) f md m x y
  end.
(* simd_fixed_size.h 1529-1557 *)
Definition arith_fixed (bitmask : nat -> bool) (op : arith) (f : fmt) (md : rmode) (x y : tuple Z) : tuple Z :=
  apply_per_chunk (arith_chunk bitmask op f md) x [y].

(* simd_fixed_size.h 1574-1613, 1647: sqrt *)
Definition sqrt_fixed (std_sqrt : Z -> Z) (f : fmt) (md : rmode) (x : tuple Z) : tuple Z :=
  apply_per_chunk (fun m reg _ => if m =? 1 then map std_sqrt reg else sqrt_reg f md reg) x [].

(* simd_fixed_size.h 1652-1666: the functions that return T; rint is nearbyint *)
Inductive rounding := FTrunc | FFloor | FCeil | FRound | FNearbyint.

(* FloatRound.v: one lane of a register of m elements; generic m as for nearbyint_lane *)
Definition rounding_lane (arm : bool) (generic : nat -> bool) (fn : rounding) (t : rtarget) (f : fmt) (md : rmode) (m : nat) : Z -> Z :=
  match fn with
  | FTrunc => trunc_lane t f md
  | FFloor => floor_lane t f md
  | FCeil => ceil_lane t f md
  | FRound => round_lane arm t f md
  | FNearbyint => nearbyint_lane (generic m) t f md
  end.
(* simd_fixed_size.h 1574-1613, 1652-1666 *)
Definition rounding_fixed (std : rounding -> Z -> Z) (arm : bool) (generic : nat -> bool) (fn : rounding) (t : rtarget) (f : fmt) (md : rmode)
  (x : tuple Z) : tuple Z :=
  apply_per_chunk (fun m reg _ => if m =? 1 then map (std fn) reg else map (rounding_lane arm generic fn t f md m) reg) x [].
