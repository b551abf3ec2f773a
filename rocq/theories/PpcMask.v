(* Masks on PowerPC: _MaskImplPpc (experimental/bits/simd_ppc.h 119-148) over
   _MaskImplBuiltin (simd_builtin.h 2620-2634, 2889-2968).

   A mask of sn elements of sz bytes is stored in a vector of st lanes (shape of
   X86Mask.v; fp and rl are not used).  A lane is the unsigned value of its bits,
   lane 0 first. *)
From Coq Require Import List ZArith Bool Arith.
From Verif Require Import Prelude MaskSpec BitMask KMask X86Lanes X86Mask.
Import ListNotations.
Local Open Scope Z_scope.

(* simd.h 1632-1648 (__to_intrin), 1506-1544 (__intrin_bitcast): a vector of less
   than 16 bytes is extended with zeros *)
Definition to_vmx (s : shape) (x : list Z) : list Z := x ++ repeat 0 (16 / sz s - length x).

(* signed saturation to 32 bits;
   helper for simd_ppc.h 119-148, simd_builtin.h 2620-2634, 2889-2968 *)
Definition sat32 (v : Z) : Z := Z.max (- 2 ^ 31) (Z.min (2 ^ 31 - 1) v).
(* vec_sums(a, zero)[3]: the saturated sum of the four int;
   helper for simd_ppc.h 119-148, simd_builtin.h 2620-2634, 2889-2968 *)
Definition vec_sums (a : list Z) : Z := sat32 (fold_right Z.add 0 a).
(* vec_sum4s(a, zero): the sums of the lanes of every four bytes; g: lanes in
   four bytes; helper for simd_ppc.h 119-148, simd_builtin.h 2620-2634, 2889-2968 *)
Fixpoint vec_sum4s (g m : nat) (a : list Z) : list Z :=
  match m with
  | O => []
  | S m' => sat32 (fold_right Z.add 0 (firstn g a)) :: vec_sum4s g m' (skipn g a)
  end.
(* reinterpretation of lanes of four or eight bytes as int.  The halves of an
   eight-byte lane are listed with the low one first, which is wrong for big
   endian; only their sum is used.
   Helper for simd_ppc.h 119-148, simd_builtin.h 2620-2634, 2889-2968 *)
Definition as_ints (s : shape) (x : list Z) : list Z :=
  map (sgn 32) (if (sz s =? 8)%nat then flat_map (fun v => [v mod 2 ^ 32; v / 2 ^ 32]) x else x).

(* vec_cntm(x, 1) of Power10: the number of lanes whose top bit is set, placed at
   bit p of a 64-bit register.  The intrinsic is not part of the repository; p is
   a parameter. Helper for simd_ppc.h 119-148, simd_builtin.h 2620-2634, 2889-2968 *)
Definition vec_cntm (p : Z) (s : shape) (x : list Z) : Z :=
  uns 64 (Z.of_nat (count_true (map (msb (lw s)) x)) * 2 ^ p).

(* simd_ppc.h 125-145: _S_popcount; p10: __have_power10vec, with the p above *)
Definition ppc_popcount (p10 : option Z) (s : shape) (k : list Z) : Z :=
  let v := to_vmx s k in
  match p10 with
  | Some p => sgn 32 (uns 32 (vec_cntm p s v))
  | None =>
      if (4 <=? sz s)%nat then
        let sum := - vec_sums (as_ints s v) in
        (* division in size_t, conversion to int *)
        sgn 32 (uns 32 (uns 64 sum / Z.of_nat (sz s / 4)))
      else - vec_sums (vec_sum4s (4 / sz s) 4 (map (sgn (lw s)) v))
  end.
(* simd_builtin.h 2922-2930: _S_some_of *)
Definition ppc_some_of (p10 : option Z) (s : shape) (k : list Z) : bool :=
  (0 <? ppc_popcount p10 s k) && (ppc_popcount p10 s k <? Z.of_nat (sn s)).

(* simd_builtin.h 2620-2634: _S_to_bits: r |= (x[i] >> (width - 1)) << i *)
Definition ppc_to_bits (s : shape) (k : list Z) : Z :=
  fold_left (fun r i => Z.lor r (Z.shiftl (nth i k 0 / 2 ^ (lw s - 1)) (Z.of_nat i))) (seq 0 (sn s)) 0.
(* simd_builtin.h 2949-2968: _S_find_first_set, _S_find_last_set *)
Definition ppc_find_first_set (s : shape) (k : list Z) : nat := countr_zero 64 (ppc_to_bits s k).
(* simd_builtin.h 2949-2968 *)
Definition ppc_find_last_set (s : shape) (k : list Z) : Z := bit_width (ppc_to_bits s k) - 1.
