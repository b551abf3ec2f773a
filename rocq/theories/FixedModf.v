(* Model of modf and copysign of a fixed_size simd:
   /repo/experimental/bits/simd_math.h 833-857 (modf), 1305-1323 (copysign), on
   the fixed_size implementations of trunc (simd_fixed_size.h 1574-1613, 1653),
   operator- (1529-1557), isinf (1705-1715), masked assignment (1789-1802) and of
   the bitwise operators (1529-1557, simd.h 5174-5199).  Registers: FloatMath.v,
   FloatRound.v, FloatArith.v.  [std_modf], [std_trunc] and [std_isinf] are
   std::modf, std::trunc and std::isinf.  Not modelled: long double,
   __FINITE_MATH_ONLY__. *)
From Coq Require Import ZArith List Bool Arith.
From Verif Require Import Prelude X86Lanes BitMask Fixed FloatSpec FloatRoundSpec FloatBits FloatArith FloatRound FloatMath.
Import ListNotations.
Local Open Scope nat_scope.

(* a binary operator on all lanes of two registers, the scalar operator for one
   lane; helper for simd_builtin.h 1655-1702, simd_scalar.h 217-283 *)
Definition lanes2 (op : Z -> Z -> Z) (_ : nat) (reg : list Z) (more : list (list Z)) : list Z :=
  map (fun p => op (fst p) (snd p)) (combine reg (hd reg more)).

(* simd_fixed_size.h 1529-1557: operator-, operator&, |, ^ for every register *)
Definition op_fixed (op : Z -> Z -> Z) (x y : tuple Z) : tuple Z := apply_per_chunk (lanes2 op) x [y].

(* simd_math.h 1305-1323: copysign of a fixed_size simd with more than one element *)
Definition copysign_fixed (f : fmt) (x y : tuple Z) : tuple Z :=
  let s := tshape x in
  let signmask := op_fixed Z.lxor (fs_broadcast s (one_bits f)) (fs_broadcast s (minus_one_bits f)) in
  op_fixed Z.lor (op_fixed Z.land x (op_fixed Z.lxor x signmask)) (op_fixed Z.land y signmask).

(* simd_math.h 1305-1323 for every size; std_copysign is std::copysign, its
   result is broadcast.  None: there is no element *)
Definition copysign_call (std_copysign : Z -> Z -> Z) (f : fmt) (x y : tuple Z) : option (tuple Z) :=
  if ssize (tshape x) =? 1 then
    match t_get x 0, t_get y 0 with
    | Some a, Some b => Some (fs_broadcast (tshape x) (std_copysign a b))
    | _, _ => None
    end
  else Some (copysign_fixed f x y).

(* _S_masked_assign of one register with a scalar on the right-hand side
   (simd_builtin.h 2454-2483, simd_scalar.h 595-602): a blend; the lanes beyond
   the size are not modelled (they keep their value) *)
Definition reg_assign (n : nat) (k : list bool) (a : list Z) (s : Z) : list Z :=
  map (fun i => if (i <? n) && nth i k false then s else nth i a 0%Z) (seq 0 (length a)).

Section Calls.
Context (std_modf : Z -> Z * Z) (std_trunc : Z -> Z) (std_isinf : Z -> bool).

(* simd_fixed_size.h 1574-1613, 1653: trunc; std::trunc for a scalar
   (simd_scalar.h 422-424) *)
Definition trunc_fixed (rt : rtarget) (f : fmt) (md : rmode) (x : tuple Z) : tuple Z :=
  apply_per_chunk (fun m reg _ => if m =? 1 then map std_trunc reg else map (trunc_lane rt f md) reg) x [].
(* simd_fixed_size.h 1705-1715: isinf; std::isinf for a scalar (simd_scalar.h 514-516) *)
Definition isinf_fixed (t : ftarget) (f : fmt) (x : tuple Z) : bitmask :=
  t_test (fun m reg _ => if m =? 1 then map std_isinf reg else map (isinf_lane t f) reg) x [].

(* simd_math.h 833-857: the returned value and *__iptr; with one element (837-843) both
   are broadcasts.  None: there is no element *)
Definition modf_fixed (t : ftarget) (rt : rtarget) (f : fmt) (md : rmode) (x : tuple Z)
  : option (tuple Z * tuple Z) :=
  if ssize (tshape x) =? 1 then
    option_map (fun a => (fs_broadcast (tshape x) (fst (std_modf a)), fs_broadcast (tshape x) (snd (std_modf a)))) (t_get x 0)
  else
    let integral := trunc_fixed rt f md x in
    let r := op_fixed (fsub f md) x integral in
    let r := fs_masked_scalar reg_assign (isinf_fixed t f x) r (zero_bits f) in
    Some (copysign_fixed f r x, integral).
End Calls.
