(* Masks on ARM: _MaskImplNeonMixin and _MaskImplNeon
   (experimental/bits/simd_neon.h 268-528).

   A mask of sn elements of sz bytes is stored in a vector of st lanes (shape of
   X86Mask.v; fp and rl are not used).  A lane is the unsigned value of its bits,
   lane 0 first; the byte order is little endian.  a64: AArch64 (long has 64
   bits), otherwise ARMv7 with NEON (long has 32 bits; ILP32 is not modelled). *)
From Coq Require Import List ZArith Bool Arith.
From Verif Require Import Prelude MaskSpec BitMask KMask X86Lanes X86Mask.
Import ListNotations.
Local Open Scope Z_scope.

(* __vector_bitcast to one wider integer: the number made of the lanes l;
   helper for simd_neon.h 268-528 *)
Fixpoint join (w : Z) (l : list Z) : Z :=
  match l with [] => 0 | a :: t => a + 2 ^ w * join w t end.

(* bytes of the vector; helper for simd_neon.h 268-528 *)
Definition nbytes (s : shape) : nat := (st s * sz s)%nat.
(* simd_neon.h 268-528 *)
Definition nbits (s : shape) : Z := lw s * Z.of_nat (st s).

(* simd_neon.h 406-408, 425-427, 462-464: k | ~_S_implicit_mask *)
Definition or_padding (s : shape) (x : list Z) : list Z :=
  map2 (fun a m => Z.lor a (ones s - m)) x (vec_implicit s).
(* the two long long of a 16-byte vector; helper for simd_neon.h 268-528 *)
Definition word0 (s : shape) (x : list Z) : Z := sgn 64 (join (lw s) (firstn (st s / 2) x)).
(* simd_neon.h 406-408, 425-427, 462-464 *)
Definition word1 (s : shape) (x : list Z) : Z := sgn 64 (join (lw s) (skipn (st s / 2) x)).

(* simd_neon.h 402-418: _S_all_of; None: signed overflow *)
Definition neon_all_of (s : shape) (k : list Z) : option bool :=
  let kk := or_padding s k in
  if (nbytes s =? 16)%nat then
    let r := word0 s kk + word1 s kk in
    if (- 2 ^ 63 <=? r) && (r <? 2 ^ 63) then Some (r =? -2) else None
  else Some (sgn (nbits s) (join (lw s) kk) =? -1).

(* simd_neon.h 421-439: _S_any_of *)
Definition neon_any_of (s : shape) (k : list Z) : bool :=
  let kk := or_padding s k in
  if (nbytes s =? 16)%nat then negb (Z.lor (word0 s kk) (word1 s kk) =? 0)
  else negb (sgn (nbits s) (join (lw s) kk) =? 0).

(* simd_neon.h 442-456: _S_none_of *)
Definition neon_none_of (s : shape) (k : list Z) : bool :=
  let kk := vec_masked s k in
  if (nbytes s =? 16)%nat then Z.lor (word0 s kk) (word1 s kk) =? 0
  else sgn (nbits s) (join (lw s) kk) =? 0.

(* vpadd, vpaddq: the sums of neighbouring lanes of a and then b;
   helper for simd_neon.h 268-528 *)
Fixpoint pair_sums (w : Z) (l : list Z) : list Z :=
  match l with a :: b :: t => uns w (a + b) :: pair_sums w t | _ => [] end.
(* simd_neon.h 442-456 *)
Definition vpadd (w : Z) (a b : list Z) : list Z := pair_sums w (a ++ b).
(* simd.h 2091-2101 (__lo64), 2115-2124 (__hi64z): the lower 8 bytes, and the
   upper 8 bytes of a 16-byte vector, else zero.  None: __lo64 copies 8 bytes
   from an object that is smaller. *)
Definition lanes8 (s : shape) : nat := (8 / sz s)%nat.
(* simd.h 2091-2101, 2115-2124 *)
Definition lo64 (s : shape) (x : list Z) : option (list Z) :=
  if (nbytes s <? 8)%nat then None else Some (firstn (lanes8 s) x).
(* simd.h 2091-2101, 2115-2124 *)
Definition hi64z (s : shape) (x : list Z) : list Z :=
  if (nbytes s =? 16)%nat then skipn (lanes8 s) x else repeat 0 (lanes8 s).

(* v_1 = vpadd(v, zero) repeated m times; helper for simd_neon.h 268-528 *)
Fixpoint vpadds (w : Z) (m : nat) (v : list Z) : list Z :=
  match m with O => v | S m' => vpadds w m' (vpadd w v (repeat 0 (length v))) end.

(* simd_neon.h 476-505: _S_popcount.  Elements of 8 bytes: __vector_bitcast<long>
   has four lanes of 32 bits on ARMv7, of which the code adds the first two. *)
Definition neon_popcount (a64 : bool) (s : shape) (k : list Z) : option Z :=
  if (sz s =? 8)%nat then
    let long := if a64 then k else flat_map (fun v => [v mod 2 ^ 32; v / 2 ^ 32]) k in
    let w := if a64 then 64 else 32 in
    Some (- (sgn w (nth 0 long 0) + sgn w (nth 1 long 0)))
  else
    match lo64 s k with
    | None => None
    | Some lo =>
        let tmp := map2 (fun a b => uns (lw s) (a + b)) lo (hi64z s k) in
        let m := if (sz s =? 1)%nat then 3%nat else if (sz s =? 2)%nat then 2%nat else 1%nat in
        Some (- sgn (lw s) (nth 0 (vpadds (lw s) m tmp) 0))
    end.

(* simd_neon.h 459-473: _S_some_of: at most 8 bytes: the unsigned integer of that
   size plus 1 is above 1, where a 2-byte number is added as int; 16 bytes:
   simd_builtin.h 2913-2919 with the popcount above *)
Definition neon_some_of (a64 : bool) (s : shape) (k : list Z) : option bool :=
  if (nbytes s <=? 8)%nat then
    let v := join (lw s) (or_padding s k) in
    Some (1 <? (if (nbytes s =? 2)%nat then v + 1 else (v + 1) mod 2 ^ nbits s))
  else option_map (fun c => (0 <? c) && (c <? Z.of_nat (sn s))) (neon_popcount a64 s k).

(* simd_neon.h 272-391: _S_to_bits.  bitsel: 1 << i for the elements (1 << (i -
   8) for i >= 8), 0 for padding; two elements of 4 bytes in 8 bytes: {1, 2} *)
Definition bitsel (s : shape) : list Z :=
  map (fun i => if (i <? sn s)%nat then 2 ^ Z.of_nat (if (i <? 8)%nat then i else (i - 8)%nat) else 0) (seq 0 (st s)).
(* vaddv, vaddvq: the sum of the lanes; helper for simd_neon.h 268-528 *)
Definition vaddv (w : Z) (x : list Z) : Z := uns w (fold_right Z.add 0 x).
(* conversion to the bits of _SanitizedBitMask<_Np>: simd.h 1000-1001 by way of
   unsigned long long *)
Definition neon_to_bits (a64 : bool) (s : shape) (k : list Z) : Z :=
  let w := lw s in
  let x := map2 Z.land k (bitsel s) in
  let zero := repeat 0 (lanes8 s) in
  let lo := firstn (lanes8 s) x in
  let hi := skipn (lanes8 s) x in
  let result v := uns (Z.of_nat (kw (sn s))) v in
  if (nbytes s =? 16)%nat then
    if (sz s =? 1)%nat then
      let v := if a64 then vpadds 8 3 x
               else vpadd 8 (vpadd 8 (vpadd 8 lo hi) zero) zero in
      result (nth 0 v 0 + 2 ^ 8 * nth 1 v 0)
    else if (sz s =? 2)%nat then
      if a64 then result (sgn 16 (vaddv 16 x))
      else result (sgn 16 (nth 0 (vpadd 16 (vpadd 16 (vpadd 16 lo hi) zero) zero) 0))
    else if (sz s =? 4)%nat then
      if a64 then result (sgn 32 (vaddv 32 x))
      else result (sgn 32 (nth 0 (vpadd 32 (vpadd 32 lo hi) zero) 0))
    else result (Z.lor (Z.land (nth 0 k 0) 1) (Z.land (nth 1 k 0) 2))
  else if (nbytes s =? 8)%nat then
    if (sz s =? 1)%nat then
      if a64 then result (sgn 8 (vaddv 8 x)) else result (sgn 8 (nth 0 (vpadds 8 3 x) 0))
    else if (sz s =? 2)%nat then
      if a64 then result (sgn 16 (vaddv 16 x)) else result (sgn 16 (nth 0 (vpadds 16 2 x) 0))
    else
      let x := map2 Z.land k [1; 2] in
      if a64 then result (sgn 32 (vaddv 32 x)) else result (sgn 32 (nth 0 (vpadd 32 x zero) 0))
  else
    (* simd_builtin.h 2620-2634: the top bit of every element *)
    result (of_lanes (map (msb w) (firstn (sn s) k))).

(* simd_builtin.h 2940-2957: _S_find_first_set, _S_find_last_set *)
Definition neon_find_first_set (a64 : bool) (s : shape) (k : list Z) : nat := countr_zero 64 (neon_to_bits a64 s k).
(* simd_builtin.h 2940-2957 *)
Definition neon_find_last_set (a64 : bool) (s : shape) (k : list Z) : Z := bit_width (neon_to_bits a64 s k) - 1.
