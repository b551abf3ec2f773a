(* Model of fpclassify of a fixed_size simd: /repo/experimental/bits/simd_math.h
   1333 (_GLIBCXX_SIMD_MATH_CALL_), simd_fixed_size.h 1589-1593, 1675 (every
   register gives a tuple of ints, which are concatenated and regrouped), on
   simd_builtin.h 2354-2438 (FloatBits.v) and simd_scalar.h 506-508.  [std] is
   std::fpclassify.  Not modelled: long double, __FINITE_MATH_ONLY__. *)
From Coq Require Import ZArith List Bool Arith.
From Verif Require Import Prelude BitMask Abi Fixed FloatSpec FloatBits FloatStorage.
Import ListNotations.
Local Open Scope nat_scope.

(* __to_intrin (simd.h 2066-2092), used in simd_builtin.h 2360-2361: an x86
   register has at least 16 bytes; junk is in the lanes added *)
Definition intrin_width (I : isa) (t : elem) (l : nat) : nat := if have_sse I then Nat.max (16 / Abi.esize t) l else l.
(* simd_builtin.h 2360-2361 *)
Definition widened (I : isa) (t : elem) (junk : Z) (reg : list Z) : list Z :=
  reg ++ repeat junk (intrin_width I t (length reg) - length reg).

(* the conversion of a register of ints to the type of the member it initializes:
   _AutoCast (simd.h 2161-2183), __vector_bitcast<int, _Np> (simd_builtin.h 2399):
   lanes are dropped or (as zeros) added *)
Definition fit (l : nat) (y : list Z) : list Z := firstn l (y ++ repeat 0%Z l).
(* simd_builtin.h 2396-2437: the return statements initialize the members of
   __fixed_size_storage_t<int, _Np> in order *)
Definition store_registers (s : shape) (ys : list (list Z)) : tuple Z :=
  map (fun p => Chunk (fst (fst p)) (fit (snd (fst p)) (snd p))) (combine s ys).

Section Call.
Context (std : Z -> Z) (I : isa) (t : elem) (f : fmt) (x86 : bool) (junk : Z).

(* _S_fpclassify of one register of m elements; None: __assert_unreachable;
   simd_builtin.h 2354-2438, simd_scalar.h 506-508 *)
Definition fpclassify_chunk (m : nat) (reg : list Z) : option (tuple Z) :=
  if m =? 1 then Some [Chunk 1 [std (nth 0 reg 0%Z)]]
  else match storage_shape I (TInt 4) m with
       | Some s => option_map (store_registers s) (fpclassify_reg x86 f m (length s) (second_scalar s) (widened I t junk reg))
       | None => None
       end.
(* simd_fixed_size.h 1589-1593: _M_apply_r and __optimize_simd_tuple *)
Definition fpclassify_fixed (x : tuple Z) : option (tuple Z) :=
  if forallb (fun c => match fpclassify_chunk (csize c) (creg c) with Some _ => true | None => false end) x
  then let r := apply_r (fun m reg => match fpclassify_chunk m reg with Some y => y | None => [] end) x in
       optimize_tuple 0%Z (length r) (storage_shape I (TInt 4)) r
  else None.
End Call.
