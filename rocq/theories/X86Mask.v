(* Model of the reductions of vector masks on x86: _MaskImplX86 for the SSE and
   AVX ABIs (experimental/bits/simd_x86.h 4875-5160) and _S_to_bits
   (4115-4240).

   A vector mask is a register of st lanes of sz bytes (unsigned values); the
   first n lanes are elements (0 or all ones), the others are padding with
   arbitrary content. *)
From Coq Require Import List ZArith Lia Bool Arith.
From Verif Require Import Prelude MaskSpec BitMask KMask X86Lanes.
Import ListNotations.
Local Open Scope Z_scope.

(* shape of a mask type: sizeof(_Tp), whether _Tp is floating point, lanes of
   the stored vector, lanes of the intrinsic register, number of elements;
   helper for simd_x86.h 4875-5160, 4115-4240 *)
Record shape := { sz : nat; fp : bool; st : nat; rl : nat; sn : nat }.

(* instruction sets the code distinguishes; helper for simd_x86.h 4875-5160, 4115-4240 *)
Record feat := { f_sse41 : bool; f_avx : bool; f_popcnt : bool }.

(* lane width in bits; helper for simd_x86.h 4875-5160, 4115-4240 *)
Definition lw (s : shape) : Z := 8 * Z.of_nat (sz s).
(* simd_x86.h 4875-5160, 4115-4240 *)
Definition ones (s : shape) : Z := 2 ^ lw s - 1.

(* simd.h 1633-1649: __to_intrin: vectors shorter than a register are extended
   with zeros *)
Definition to_intrin (s : shape) (x : list Z) : list Z := x ++ repeat 0 (rl s - length x).

(* simd_builtin.h 997-1012: _S_implicit_mask *)
Definition vec_implicit (s : shape) : list Z :=
  if (sn s <? st s)%nat
  then map (fun i => if (i <? sn s)%nat then ones s else 0) (seq 0 (st s))
  else repeat (ones s) (st s).
(* simd_builtin.h 1014-1021: _S_implicit_mask_intrin *)
Definition implicit_intrin (s : shape) : list Z := to_intrin s (vec_implicit s).
(* simd_builtin.h 1023-1032: _S_masked *)
Definition vec_masked (s : shape) (x : list Z) : list Z :=
  if (sn s <? st s)%nat then map2 Z.land x (vec_implicit s) else x.

(* ptest looks at all bits, vtestps/vtestpd only at the sign bit of every lane;
   simd_x86.h 189-286 uses the latter for float and double with 32-byte
   registers or AVX *)
Definition by_sign (f : feat) (s : shape) : bool :=
  (fp s && (f_avx f || (rl s * sz s =? 32)%nat))%bool.
(* simd_x86.h 189-286 *)
Definition lane_zero (f : feat) (s : shape) (v : Z) : bool :=
  if by_sign f s then negb (msb (lw s) v) else v =? 0.
(* simd_x86.h 189-219: __testz: is a & b zero? *)
Definition testz (f : feat) (s : shape) (a b : list Z) : bool :=
  forallb (lane_zero f s) (map2 Z.land a b).
(* simd_x86.h 222-252: __testc: is ~a & b zero? *)
Definition testc (f : feat) (s : shape) (a b : list Z) : bool :=
  forallb (lane_zero f s) (map2 (fun x y => Z.land (Z.lnot x) y) a b).
(* simd_x86.h 255-286: __testnzc: neither is zero;
   helper for simd_x86.h 4875-5160, 4115-4240 *)
Definition testnzc (f : feat) (s : shape) (a b : list Z) : bool :=
  negb (testz f s a b) && negb (testc f s a b).

(* pmovmskb, movmskps, movmskpd (simd_x86.h 166-186: __movemask): sign bits of
   the bytes of an integer register, of the lanes of a float register *)
Definition byte_signs (k : nat) (v : Z) : list bool :=
  map (fun j => Z.testbit v (8 * Z.of_nat j + 7)) (seq 0 k).
(* simd_x86.h 166-186 *)
Definition movemask (s : shape) (x : list Z) : Z :=
  if fp s then of_lanes (map (msb (lw s)) x)
  else of_lanes (flat_map (byte_signs (sz s)) x).
(* bits per element in the result of movemask;
   helper for simd_x86.h 4875-5160, 4115-4240 *)
Definition mm_bits (s : shape) : nat := if fp s then sn s else (sn s * sz s)%nat.

(* simd_x86.h 4877-4904: _S_all_of *)
Definition x86_all_of (f : feat) (s : shape) (k : list Z) : bool :=
  let a := to_intrin s k in
  if f_sse41 f then testc f s a (implicit_intrin s)
  else Z.land (movemask s a) (2 ^ Z.of_nat (mm_bits s) - 1) =? 2 ^ Z.of_nat (mm_bits s) - 1.

(* simd_x86.h 4935-4960: _S_any_of; sizeof(k) is the size of the stored vector *)
Definition x86_any_of (f : feat) (s : shape) (k : list Z) : bool :=
  let a := to_intrin s k in
  if f_sse41 f then
    if ((sn s <? st s)%nat || (st s * sz s <? 16)%nat)%bool
    then negb (testz f s a (implicit_intrin s)) else negb (testz f s a a)
  else negb (Z.land (movemask s a) (2 ^ Z.of_nat (mm_bits s) - 1) =? 0).

(* simd_x86.h 4966-4992: _S_none_of *)
Definition x86_none_of (f : feat) (s : shape) (k : list Z) : bool :=
  let a := to_intrin s k in
  if f_sse41 f then
    if ((sn s <? st s)%nat || (st s * sz s <? 16)%nat)%bool
    then testz f s a (implicit_intrin s) else testz f s a a
  else Z.land (movemask s a) (2 ^ Z.of_nat (mm_bits s) - 1) =? 0.

(* simd_x86.h 4998-5033: _S_some_of *)
Definition x86_some_of (f : feat) (s : shape) (k : list Z) : bool :=
  let a := to_intrin s k in
  if f_sse41 f then testnzc f s a (implicit_intrin s)
  else
    let all := 2 ^ Z.of_nat (mm_bits s) - 1 in
    let t := Z.land (movemask s a) all in
    (0 <? t) && (t <? all).

(* pshufd and pshuflw as permutations of the lanes of the register: lane i of
   the result is lane (nth i idx) of x; helper for simd_x86.h 4875-5160, 4115-4240 *)
Definition perm (idx : list nat) (x : list Z) : list Z := map (fun i => nth i x 0) idx.
(* _mm_shuffle_epi32(x, _MM_SHUFFLE(0, 1, 2, 3)) on 4-, 2- and 1-byte lanes;
   helper for simd_x86.h 4875-5160, 4115-4240 *)
Definition rev32_4 := [3; 2; 1; 0]%nat.
(* simd_x86.h 4998-5033 *)
Definition rev32_2 := [6; 7; 4; 5; 2; 3; 0; 1]%nat.
(* simd_x86.h 4998-5033 *)
Definition rev32_1 := [12; 13; 14; 15; 8; 9; 10; 11; 4; 5; 6; 7; 0; 1; 2; 3]%nat.
(* _mm_shufflelo_epi16(x, _MM_SHUFFLE(1, 0, 3, 2)) on 4-byte lanes;
   helper for simd_x86.h 4875-5160, 4115-4240 *)
Definition lo1032_4 := [1; 0; 2; 3]%nat.
(* _mm_shufflelo_epi16(x, _MM_SHUFFLE(0, 1, 2, 3)) on 2- and 1-byte lanes;
   helper for simd_x86.h 4875-5160, 4115-4240 *)
Definition lo0123_2 := [3; 2; 1; 0; 4; 5; 6; 7]%nat.
(* simd_x86.h 4998-5033 *)
Definition lo0123_1 := [6; 7; 4; 5; 2; 3; 0; 1; 8; 9; 10; 11; 12; 13; 14; 15]%nat.
(* _mm_shufflelo_epi16(x, _MM_SHUFFLE(2, 3, 0, 1)) on 2- and 1-byte lanes;
   helper for simd_x86.h 4875-5160, 4115-4240 *)
Definition lo2301_2 := [1; 0; 3; 2; 4; 5; 6; 7]%nat.
(* simd_x86.h 4998-5033 *)
Definition lo2301_1 := [2; 3; 0; 1; 6; 7; 4; 5; 8; 9; 10; 11; 12; 13; 14; 15]%nat.
(* one step: x + shuffled x; helper for simd_x86.h 4875-5160, 4115-4240 *)
Definition add_perm (w : Z) (idx : list nat) (x : list Z) : list Z :=
  map2 (padd w) x (perm idx x).

(* simd_x86.h 5040-5136: _S_popcount.  None: the branch for 32-byte registers
   without popcnt, which has no return statement (5123-5133), and shapes for
   which no branch exists. *)
Definition x86_popcount (f : feat) (s : shape) (k : list Z) : option Z :=
  let kk := vec_masked s k in
  if f_popcnt f then
    let c := Z.of_nat (popcount (movemask s (to_intrin s kk))) in
    Some (if fp s then c else c / Z.of_nat (sz s))
  else if ((sn s =? 2) && (sz s =? 8))%nat then
    let m := of_lanes (map (msb 64) (to_intrin s kk)) in
    Some (m - Z.shiftr m 1)
  else if ((sn s <=? 4) && (sz s =? 8))%nat then
    (* -(lo128 + hi128), then the sum of the two lanes; long arithmetic *)
    let x := map2 (fun a b => sgn 64 (uns 64 (- sgn 64 (padd 64 a b)))) (firstn 2 kk) (skipn 2 kk) in
    Some (nth 0 x 0 + nth 1 x 0)
  else if ((sn s <=? 4) && (sz s =? 4))%nat then
    let x := add_perm 32 lo1032_4 (add_perm 32 rev32_4 (to_intrin s kk)) in
    Some (- sgn 32 (nth 0 x 0))
  else if ((sn s <=? 8) && (sz s =? 2))%nat then
    let x := add_perm 16 lo2301_2 (add_perm 16 lo0123_2 (add_perm 16 rev32_2 (to_intrin s kk))) in
    Some (- sgn 16 (nth 0 x 0))
  else if ((sn s <=? 16) && (sz s =? 1))%nat then
    let x := add_perm 8 lo2301_1 (add_perm 8 lo0123_1 (add_perm 8 rev32_1 (to_intrin s kk))) in
    let y := map (fun v => (- v) mod 2 ^ 8) x in
    if f_sse41 f then Some (nth 0 y 0 + nth 1 y 0)
    else
      let z := nth 0 y 0 + 2 ^ 8 * nth 1 y 0 in   (* _mm_extract_epi16(y, 0) *)
      Some (Z.land z 255 + Z.shiftr z 8)
  else None.

(* packsswb: signed saturation from 16 to 8 bits;
   helper for simd_x86.h 4875-5160, 4115-4240 *)
Definition packs16 (v : Z) : Z :=
  uns 8 (Z.max (-128) (Z.min 127 (sgn 16 v))).

(* simd_x86.h 4137-4240: _S_to_bits for a vector mask, run-time paths: the sign
   bit of every lane (pmovmskb, vpmov*2m, vpcmp against zero, movmskps,
   movmskpd), for 2-byte lanes without AVX512BW after packing to bytes; the
   result is sanitized, that is, cut to the N elements *)
Definition x86_to_bits (packs : bool) (s : shape) (k : list Z) : Z :=
  let a := to_intrin s k in
  let signs := if (packs && (sz s =? 2)%nat)%bool then map (msb 8) (map packs16 a)
               else map (msb (lw s)) a in
  Z.land (of_lanes signs) (2 ^ Z.of_nat (sn s) - 1).

(* simd_builtin.h 2940-2946 / 2950-2957: _S_find_first_set, _S_find_last_set *)
Definition x86_find_first_set (packs : bool) (s : shape) (k : list Z) : nat :=
  countr_zero 64 (x86_to_bits packs s k).
(* simd_builtin.h 2940-2946, 2950-2957 *)
Definition x86_find_last_set (packs : bool) (s : shape) (k : list Z) : Z :=
  bit_width (x86_to_bits packs s k) - 1.

(* simd_builtin.h 2890-2957: the generic _MaskImplBuiltin versions, on the
   elements only: used on targets other than x86 and NEON *)
Definition base_all_of (s : shape) (k : list Z) : bool :=
  forallb (fun v => negb (v =? 0)) (firstn (sn s) k).
(* simd_builtin.h 2890-2957 *)
Definition base_any_of (s : shape) (k : list Z) : bool :=
  existsb (fun v => negb (v =? 0)) (firstn (sn s) k).
(* simd_builtin.h 2890-2957 *)
Definition base_none_of (s : shape) (k : list Z) : bool :=
  forallb (fun v => v =? 0) (firstn (sn s) k).
(* -reduce(simd<_I>(k)) for the signed integer type of sizeof(_Tp) bytes; reduce
   adds the elements with wrap-around in _I, here from left to right; the
   negation is done in int and does not wrap;
   helper for simd_x86.h 4875-5160, 4115-4240 *)
Definition base_popcount (s : shape) (k : list Z) : Z :=
  - sgn (lw s) (fold_left (fun a v => uns (lw s) (a + v)) (firstn (sn s) k) 0).
(* simd_builtin.h 2890-2957 *)
Definition base_some_of (s : shape) (k : list Z) : bool :=
  (0 <? base_popcount s k) && (base_popcount s k <? Z.of_nat (sn s)).
