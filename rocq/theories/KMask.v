(* Model of simd_mask for the AVX-512 ABIs (simd_abi::_VecBltnBtmsk), whose
   data member is _SimdWrapper<bool, N> (experimental/bits/simd.h 2343-2412): a
   mask word with one bit per element.  The word has 8, 16, 32 or 64 bits, so
   for most N there are bits above the N elements.

   A mask word is a non-negative Z; its width is kw n.  Registers compared by
   a comparison are represented by the list of per-lane results, one per lane
   of the register (at least N, never more than the width of the word). *)
From Coq Require Import List ZArith Lia Bool Arith.
From Verif Require Import Prelude MaskSpec BitMask.
Import ListNotations.
Local Open Scope Z_scope.

(* simd.h 2190-2220: width in bits of __bool_storage_member_type_t<N>, N >= 2
   (__mmask8 for 2, 4 and 8, otherwise the word of bit_ceil(N) bits).  The case
   N = 1 (bool) belongs to no _VecBltnBtmsk ABI and is not modelled. *)
Definition kw (n : nat) : nat := Nat.max 8 (bit_ceil n).

(* conversion of an integer to the mask word; helper for simd.h 2343-2412 *)
Definition kword (n : nat) (x : Z) : Z := x mod 2 ^ Z.of_nat (kw n).

(* simd_builtin.h 1132-1150: __implicit_mask_n, _S_implicit_mask and
   _S_implicit_mask_intrin *)
Definition implicit_mask (n : nat) : Z :=
  if (n <? kw n)%nat then kword n (2 ^ Z.of_nat n - 1) else kword n (-1).

(* simd_builtin.h 1152-1163: _VecBltnBtmsk::_S_masked for _SimdWrapper<bool, N>;
   (N & (N - 1)) != 0 means that N is not a power of two *)
Definition k_masked (n : nat) (k : Z) : Z :=
  if ((n <? 8)%nat || negb (bit_ceil n =? n)%nat)%bool
  then Z.land k (kword n (2 ^ Z.of_nat n - 1)) else k.

(* The mask word an AVX-512 instruction produces from one boolean per lane
   (vptestm, vpcmp, vcmpps, vfpclass, vpmovm2, movmskps): lane i gives bit i;
   helper for simd.h 2343-2412 *)
Fixpoint of_lanes (l : list bool) : Z :=
  match l with [] => 0 | b :: t => b2z b + 2 * of_lanes t end.

(* simd.h 2372-2379: _SimdWrapper<bool, N>::operator[] *)
Definition k_get (k : Z) (i : nat) : bool := negb (Z.land k (2 ^ Z.of_nat i) =? 0).

(* simd.h 2381-2387: _M_set *)
Definition k_set (n : nat) (k : Z) (i : nat) (x : bool) : Z :=
  if x then kword n (Z.lor k (2 ^ Z.of_nat i))
  else kword n (Z.land k (Z.lnot (2 ^ Z.of_nat i))).

(* simd_x86.h 4266-4277: _MaskImplX86::_S_broadcast *)
Definition k_broadcast (n : nat) (x : bool) : Z :=
  if x then k_masked n (kword n (-1)) else 0.

(* simd.h 4502-4510: generator constructor, starting from a zeroed word *)
Definition k_generate (n : nat) (g : nat -> bool) : Z :=
  fold_left (fun k i => k_set n k i (g i)) (seq 0 n) 0.

(* simd_x86.h 4433-4443: _S_from_bitmask; the bits of a sanitized _BitMask<N>
   are those of the bitset and no others (theorem C14 about _BitMask) *)
Definition k_bitset (n : nat) (l : list bool) : Z := kword n (of_lanes (firstn n l)).

(* simd_x86.h 4280-4366: _S_load from bool*: N bytes are copied into a zeroed
   vector and every byte is tested.  The three-way and four-way splits used
   when AVX512BW is missing are not modelled: without AVX512BW a bit mask has
   at most 16 elements. *)
Definition k_load (n : nat) (m : nat -> bool) : Z :=
  kword n (of_lanes (map m (seq 0 n) ++ repeat false (kw n - n))).

(* simd_x86.h 2213-2286 (==), 2360-2572 (<, <=), 3130-3440 (isgreater, ...,
   isunordered), 2290-2316 (!= of floating-point values): comparison under the
   implicit mask k1.  l: the result for every lane of the register *)
Definition k_compare (n : nat) (l : list bool) : Z :=
  kword n (Z.land (implicit_mask n) (of_lanes l)).

(* simd_x86.h 2317-2345: != of integers is the complement of the masked ==.
   l: for every lane of the register, whether it is equal *)
Definition k_int_not_equal (n : nat) (l : list bool) : Z :=
  kword n (Z.lnot (Z.land (implicit_mask n) (of_lanes l))).

(* simd_x86.h 2826-2862 (signbit), 3013-3030 (isinf): tests on all lanes of the
   register, not masked *)
Definition k_lane_test (n : nat) (l : list bool) : Z := kword n (of_lanes l).

(* simd_x86.h 2984-3000, 3060-3085 (isfinite, isnormal with AVX512DQ): k1 xor
   (fpclass under k1).  l: for every lane whether it is in the class *)
Definition k_not_class (n : nat) (l : list bool) : Z :=
  kword n (Z.lxor (implicit_mask n) (Z.land (implicit_mask n) (of_lanes l))).

(* simd_x86.h 4717-4850: kand, kor, kxor, kandn with the implicit mask *)
Definition k_and (n : nat) (a b : Z) : Z := kword n (Z.land a b).
(* simd_x86.h 4717-4850 *)
Definition k_or (n : nat) (a b : Z) : Z := kword n (Z.lor a b).
(* simd_x86.h 4717-4850 *)
Definition k_xor (n : nat) (a b : Z) : Z := kword n (Z.lxor a b).
(* simd_x86.h 4717-4850 *)
Definition k_not (n : nat) (a : Z) : Z := kword n (Z.land (Z.lnot a) (implicit_mask n)).

(* simd_x86.h 4853-4862: _S_masked_assign with a mask *)
Definition k_assign (n : nat) (k lhs rhs : Z) : Z :=
  kword n (Z.lor (Z.land (Z.lnot k) lhs) (Z.land k rhs)).
(* simd_x86.h 4864-4872: _S_masked_assign with a bool *)
Definition k_assign_bool (n : nat) (k lhs : Z) (x : bool) : Z :=
  if x then kword n (Z.lor k lhs) else kword n (Z.land (Z.lnot k) lhs).

(* simd_x86.h 4446-4474: _S_masked_load with AVX512BW and VL; m i is the bool
   at address mem + i, whatever is there.  Bytes whose mask bit is clear are
   not read and give 0. *)
Definition k_masked_load_vl (n : nat) (merge k : Z) (m : nat -> bool) : Z :=
  kword n (Z.lor (Z.land merge (Z.lnot k))
             (of_lanes (map (fun i => k_get k i && m i)%bool (seq 0 (kw n))))).
(* simd_x86.h 4478-4484: _S_masked_load without them: one _M_set per set bit of
   the mask word (simd.h 879-895: _S_bit_iteration visits the set bits in
   increasing order, theorem C13) *)
Definition k_masked_load_bits (n : nat) (merge k : Z) (m : nat -> bool) : Z :=
  fold_left (fun a i => k_set n a i (m i)) (filter (k_get k) (seq 0 (kw n))) merge.

(* simd_x86.h 4446-4484 and 4685-4710: addresses (relative to mem) read by
   _S_masked_load and written by _S_masked_store: the set bits of the mask
   word *)
Definition k_touched (n : nat) (k : Z) : list nat := filter (k_get k) (seq 0 (kw n)).

(* simd_x86.h 4685-4710: _S_masked_store: memory after storing v under k *)
Definition k_masked_store (n : nat) (v k : Z) (m : nat -> option bool) : nat -> option bool :=
  fun i => if ((i <? kw n)%nat && k_get k i)%bool then Some (k_get v i) else m i.

(* ------------------------------------------------------------------ *)
(* reductions *)

(* _kortestc_mask{8,16,32,64}_u8(a, b): is a | b all ones?; helper for simd.h 2343-2412 *)
Definition kortestc (w : nat) (a b : Z) : bool :=
  Z.land (Z.lor a b) (Z.ones (Z.of_nat w)) =? Z.ones (Z.of_nat w).

(* simd_x86.h 4906-4931: _S_all_of; dq: AVX512DQ available *)
Definition k_all_of (dq : bool) (n : nat) (k : Z) : bool :=
  let m := implicit_mask n in
  if (kw n =? 8)%nat then
    if dq then kortestc 8 k (if m =? 255 then k else kword n (Z.lnot m))
    else kortestc 16 k (Z.lnot m mod 2 ^ 16)
  else kortestc (kw n) k (if m =? Z.ones (Z.of_nat (kw n)) then k else kword n (Z.lnot m)).

(* simd_x86.h 4961-4963: _S_any_of *)
Definition k_any_of (n : nat) (k : Z) : bool := negb (Z.land k (implicit_mask n) =? 0).
(* simd_x86.h 4993-4995: _S_none_of *)
Definition k_none_of (n : nat) (k : Z) : bool := Z.land k (implicit_mask n) =? 0.
(* simd_x86.h 5034-5035: _S_some_of *)
Definition k_some_of (dq : bool) (n : nat) (k : Z) : bool := k_any_of n k && negb (k_all_of dq n k).
(* simd_x86.h 5044-5056: _S_popcount *)
Definition k_popcount (n : nat) (k : Z) : nat := popcount (k_masked n k).
(* simd_x86.h 5143-5149: _S_find_first_set *)
Definition k_find_first_set (n : nat) (k : Z) : nat := countr_zero (kw n) k.
(* simd_x86.h 5155-5161: _S_find_last_set *)
Definition k_find_last_set (k : Z) : Z := bit_width k - 1.
(* simd_x86.h 4117-4121: _S_to_bits: the sanitized _BitMask<N>, here as the
   list of its N bits *)
Definition k_to_bits (n : nat) (k : Z) : list bool := map (k_get k) (seq 0 n).

(* ------------------------------------------------------------------ *)
(* A program over masks of N elements in mask registers; helper for simd.h 2343-2412 *)
Inductive kexpr : Type :=
| KBroadcast (x : bool)                   (* simd_mask(x) *)
| KBitset (l : list bool)                 (* conversion from a bitset or fixed_size mask *)
| KGen (g : nat -> bool)                  (* generator constructor *)
| KLoad (m : nat -> bool)                 (* copy_from(bool* ) *)
| KDefault (w : Z)                        (* default-initialised: arbitrary word w *)
| KCompare (l : list bool)                (* ==, <, <=, ...; != of floating-point values *)
| KIntNe (l : list bool)                  (* x != y for integers, l: lanes that are equal *)
| KLaneTest (l : list bool)               (* signbit, isinf *)
| KNotClass (l : list bool)               (* isfinite, isnormal *)
| KCast (a : kexpr)                       (* static_simd_cast between bit masks *)
| KNot (a : kexpr)
| KAnd (a b : kexpr) | KOr (a b : kexpr) | KXor (a b : kexpr)
| KLAnd (a b : kexpr) | KLOr (a b : kexpr)
| KEq (a b : kexpr) | KNeq (a b : kexpr)
| KSet (a : kexpr) (i : nat) (x : bool)   (* a[i] = x *)
| KAssign (k a b : kexpr)                 (* where(k, a) = b *)
| KAssignB (k a : kexpr) (x : bool)       (* where(k, a) = x *)
| KMaskedLoad (k a : kexpr) (m : nat -> bool). (* where(k, a).copy_from(m) *)

(* evaluation on mask words; vl: AVX512BW and VL available.  && and || are
   kand and kor (simd_x86.h 4717-4757), == is !(a != b) and != is kxor (simd.h
   4487-4494), static_simd_cast keeps the word (simd_builtin.h 2700-2707) *)
Fixpoint k_eval (vl : bool) (n : nat) (e : kexpr) : Z :=
  match e with
  | KBroadcast x => k_broadcast n x
  | KBitset l => k_bitset n l
  | KGen g => k_generate n g
  | KLoad m => k_load n m
  | KDefault w => kword n w
  | KCompare l => k_compare n l
  | KIntNe l => k_int_not_equal n l
  | KLaneTest l => k_lane_test n l
  | KNotClass l => k_not_class n l
  | KCast a => k_eval vl n a
  | KNot a => k_not n (k_eval vl n a)
  | KAnd a b | KLAnd a b => k_and n (k_eval vl n a) (k_eval vl n b)
  | KOr a b | KLOr a b => k_or n (k_eval vl n a) (k_eval vl n b)
  | KXor a b | KNeq a b => k_xor n (k_eval vl n a) (k_eval vl n b)
  | KEq a b => k_not n (k_xor n (k_eval vl n a) (k_eval vl n b))
  | KSet a i x => k_set n (k_eval vl n a) i x
  | KAssign k a b => k_assign n (k_eval vl n k) (k_eval vl n a) (k_eval vl n b)
  | KAssignB k a x => k_assign_bool n (k_eval vl n k) (k_eval vl n a) x
  | KMaskedLoad k a m =>
      if vl then k_masked_load_vl n (k_eval vl n a) (k_eval vl n k) m
      else k_masked_load_bits n (k_eval vl n a) (k_eval vl n k) m
  end.

(* Register operands have at least N lanes; subscripts are in range; bitsets
   have N elements; there are at most 64 elements.  (Lists of lanes longer than
   the mask word cannot occur: excluded by the second bound.);
   helper for simd.h 2343-2412 *)
Fixpoint kexpr_ok (n : nat) (e : kexpr) : Prop :=
  match e with
  | KBroadcast _ | KGen _ | KLoad _ | KDefault _ => True
  | KBitset l => length l = n
  | KCompare l | KIntNe l | KLaneTest l | KNotClass l => (n <= length l <= kw n)%nat
  | KCast a | KNot a => kexpr_ok n a
  | KAnd a b | KOr a b | KXor a b | KLAnd a b | KLOr a b | KEq a b | KNeq a b =>
      kexpr_ok n a /\ kexpr_ok n b
  | KSet a i _ => kexpr_ok n a /\ (i < n)%nat
  | KAssign k a b => kexpr_ok n k /\ kexpr_ok n a /\ kexpr_ok n b
  | KAssignB k a _ | KMaskedLoad k a _ => kexpr_ok n k /\ kexpr_ok n a
  end.
