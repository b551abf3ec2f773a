(* Storing masks to bool*: _CommonImplBuiltin::_S_store_bool_array
   (simd_builtin.h 1320-1362), _CommonImplX86::_S_store_bool_array (simd_x86.h
   537-615), _MaskImplX86::_S_store (simd_x86.h 4549-4676), the generic
   _MaskImplBuiltin::_S_store (simd_builtin.h 2766-2774).

   Memory is a function from addresses (offsets from mem) to byte values; a
   store is a list of writes (offset, bytes) done one after the other. *)
From Coq Require Import List ZArith Bool Arith.
From Verif Require Import Prelude BitMask KMask X86Lanes X86Mask.
Import ListNotations.
Local Open Scope Z_scope.

(* one memcpy to mem + off;
   helper for simd_builtin.h 1320-1362, simd_x86.h 537-615, 4549-4676, simd_builtin.h 2766-2774 *)
Definition write (m : nat -> Z) (w : nat * list Z) : nat -> Z :=
  fun i => if ((fst w <=? i) && (i <? fst w + length (snd w)))%nat
           then nth (i - fst w) (snd w) 0 else m i.
(* simd_builtin.h 1320-1362, simd_x86.h 537-615, 4549-4676, simd_builtin.h 2766-2774 *)
Definition run_writes (ws : list (nat * list Z)) (m : nat -> Z) : nat -> Z := fold_left write ws m.

(* the bytes of an object of ts bytes holding v; be: big-endian target;
   helper for simd_builtin.h 1320-1362, simd_x86.h 537-615, 4549-4676, simd_builtin.h 2766-2774 *)
Definition le_bytes (ts : nat) (v : Z) : list Z :=
  map (fun j => (v / 2 ^ (8 * Z.of_nat j)) mod 2 ^ 8) (seq 0 ts).
(* simd_builtin.h 1275-1312: _S_store<req> of an integer object of ts bytes:
   memcpy of its first req bytes.  For vectors: the first req bytes. *)
Definition store_int (be : bool) (ts req : nat) (v : Z) : list Z :=
  firstn req (if be then rev (le_bytes ts v) else le_bytes ts v).

(* simd.h 1087-1104: x._M_extract<off>()._M_to_bits() *)
Definition ext (n : nat) (k : bitmask) (off : nat) : Z := nth 0 (bm_extract n off (n - off) k) 0.

(* simd_builtin.h 1320-1362: _CommonImplBuiltin::_S_store_bool_array *)
Definition chunk4 (be : bool) (n : nat) (k : bitmask) (i : nat) : list (nat * list Z) :=
  let off := (i * 4)%nat in
  let remaining := (n - off)%nat in
  if ((4 <? remaining) && (remaining <=? 7))%nat
  then [(off, store_int be 8 remaining
                (Z.land (uns 64 (ext n k off * 0x40810204081)) 0x0101010101010101))]
  else if (4 <=? remaining)%nat
  then let bits := uns 32 (ext n k off) in
       let bits := if (7 <? remaining)%nat then Z.land bits 0xf else bits in
       [(off, store_int be 4 4 (Z.land (bits * 0x204081) 0x01010101))]
  else [].
(* simd_builtin.h 1320-1362 *)
Definition store_bool_array (be : bool) (n : nat) (k : bitmask) : list (nat * list Z) :=
  if (n =? 1)%nat then [(0%nat, [b2z (bm_get n k 0)])]
  else if (n =? 2)%nat
  then [(0%nat, store_int be 2 n (Z.land (bm_to_ullong k * 0x81) 0x0101))]
  else if (n =? 3)%nat
  then [(0%nat, store_int be 4 n (Z.land (bm_to_ullong k * 0x4081) 0x010101))]
  else flat_map (chunk4 be n k) (seq 0 (div_roundup n 4)).

(* pdep of w bits: the low bits of src go to the positions of the set bits of
   mask;
   helper for simd_builtin.h 1320-1362, simd_x86.h 537-615, 4549-4676, simd_builtin.h 2766-2774 *)
Fixpoint pdep (w : nat) (pos : Z) (src mask : Z) : Z :=
  match w with
  | O => 0
  | S w => if Z.testbit mask pos
           then b2z (Z.odd src) * 2 ^ pos + pdep w (pos + 1) (src / 2) mask
           else pdep w (pos + 1) src mask
  end.

(* punpcklbw/wd/dq of a register with itself: every lane of the lower half twice;
   helper for simd_builtin.h 1320-1362, simd_x86.h 537-615, 4549-4676, simd_builtin.h 2766-2774 *)
Fixpoint dup {A} (l : list A) : list A :=
  match l with [] => [] | a :: t => a :: a :: dup t end.
(* simd_builtin.h 1320-1362 *)
Definition unpacklo_self {A} (l : list A) : list A := dup (firstn (length l / 2) l).
(* groups of two neighbouring lanes: a register seen with wider lanes;
   helper for simd_builtin.h 1320-1362, simd_x86.h 537-615, 4549-4676, simd_builtin.h 2766-2774 *)
Fixpoint pairs {A} (l : list A) : list (A * A) :=
  match l with a :: b :: t => (a, b) :: pairs t | _ => [] end.
(* simd_builtin.h 1320-1362 *)
Fixpoint unpairs {A} (l : list (A * A)) : list A :=
  match l with (a, b) :: t => a :: b :: unpairs t | [] => [] end.

(* packssdw: signed saturation from 32 to 16 bits;
   helper for simd_builtin.h 1320-1362, simd_x86.h 537-615, 4549-4676, simd_builtin.h 2766-2774 *)
Definition packs32 (v : Z) : Z := uns 16 (Z.max (-32768) (Z.min 32767 (sgn 32 v))).

(* simd_x86.h 574-607: 16 bytes from 16 bits, AVX512F without BW: vmovdqa32 with
   mask, vpackssdw in 128-bit lanes, __xzyw (simd_x86.h 298-309), packsswb *)
Definition bools16_avx512f (todo : nat) (bits : Z) : list Z :=
  let as32 := map (fun i => b2z (Z.testbit bits (Z.of_nat i))) (seq 0 16) in
  let lo := firstn 8 as32 in
  let hi := if (8 <? todo)%nat then skipn 8 as32 else repeat 0 8 in
  let packed := map packs32 (firstn 4 lo ++ firstn 4 hi ++ skipn 4 lo ++ skipn 4 hi) in
  let x := firstn 4 packed in let y := firstn 4 (skipn 4 packed) in
  let z := firstn 4 (skipn 8 packed) in let w := skipn 12 packed in
  map packs16 (x ++ z ++ y ++ w).
(* SSE2: movd, punpcklbw, punpcklwd, punpckldq, and, pcmpeqb, + 1;
   helper for simd_builtin.h 1320-1362, simd_x86.h 537-615, 4549-4676, simd_builtin.h 2766-2774 *)
Definition bit_index : list Z := [1; 2; 4; 8; 16; 32; 64; 128; 1; 2; 4; 8; 16; 32; 64; 128].
(* simd_x86.h 574-607, 298-309 *)
Definition bools16_sse2 (bits : Z) : list Z :=
  let t := le_bytes 4 bits ++ repeat 0 12 in
  let t := unpacklo_self t in
  let t := unpairs (unpacklo_self (pairs t)) in
  let t := unpairs (unpairs (unpacklo_self (pairs (pairs t)))) in
  map (fun v => uns 8 ((if v =? 0 then 255 else 0) + 1)) (map2 Z.land t bit_index).

(* what the code distinguishes: AVX512BW+VL, BMI2, SSE2, AVX512F, 64-bit mode;
   helper for simd_builtin.h 1320-1362, simd_x86.h 537-615, 4549-4676, simd_builtin.h 2766-2774 *)
Record bs_feat := { b_bwvl : bool; b_bmi2 : bool; b_sse2 : bool; b_avx512f : bool; b_x64 : bool }.

(* simd_x86.h 537-615: _CommonImplX86::_S_store_bool_array, n <= 64 *)
Definition chunk_pdep (x64 : bool) (n : nat) (k : bitmask) (i : nat) : nat * list Z :=
  let sz := if x64 then 8%nat else 4%nat in
  let off := (i * sz)%nat in
  let todo := Nat.min sz (n - off) in
  if (todo =? 1)%nat then (off, [b2z (bm_get n k off)])
  else (off, store_int false sz todo
               (if x64 then pdep 64 0 (ext n k off) 0x0101010101010101
                else pdep 32 0 (uns 32 (ext n k off)) 0x01010101)).
(* simd_x86.h 537-615 *)
Definition chunk16 (f : bs_feat) (n : nat) (k : bitmask) (i : nat) : nat * list Z :=
  let off := (i * 16)%nat in
  let todo := Nat.min 16 (n - off) in
  let bits := uns 32 (ext n k off) in
  (off, firstn todo (if b_avx512f f then bools16_avx512f todo bits else bools16_sse2 bits)).
(* simd_x86.h 537-615 *)
Definition x86_store_bool_array (f : bs_feat) (n : nat) (k : bitmask) : list (nat * list Z) :=
  if b_bwvl f
  then let lanes := if (n <=? 16)%nat then 16%nat else if (n <=? 32)%nat then 32%nat else 64%nat in
       [(0%nat, firstn n (map (fun i => Z.land 1 (if Z.testbit (bm_to_ullong k) (Z.of_nat i) then 255 else 0))
                          (seq 0 lanes)))]
  else if b_bmi2 f
  then if (n <=? 4)%nat
       then [(0%nat, store_int false 4 n (pdep 32 0 (bm_to_ullong k) 0x01010101))]
       else map (chunk_pdep (b_x64 f) n k) (seq 0 (div_roundup n (if b_x64 f then 8 else 4)))
  else if (b_sse2 f && (7 <? n)%nat)%bool
  then map (chunk16 f n k) (seq 0 (div_roundup n 16))
  else store_bool_array false n k.

(* simd_fixed_size.h 1946-1955: _MaskImplFixedSize::_S_store; x86: whether
   _FirstAbi<_UChar> is an x86 ABI *)
Definition fixed_store (x86 : option bs_feat) (be : bool) (n : nat) (k : bitmask) : list (nat * list Z) :=
  if (n =? 1)%nat then [(0%nat, [b2z (bm_get n k 0)])]
  else match x86 with
       | Some f => x86_store_bool_array f n k
       | None => store_bool_array be n k
       end.

(* simd_x86.h 4554-4591: _S_store of an AVX-512 mask register; k: the word *)
Definition k_store (bwvl x64 : bool) (n : nat) (k : Z) : list (nat * list Z) :=
  if bwvl
  then let lanes := if (n <=? 16)%nat then 16%nat else if (n <=? 32)%nat then 32%nat else 64%nat in
       [(0%nat, firstn n (map (fun i => if Z.testbit k (Z.of_nat i) then 1 else 0) (seq 0 lanes)))]
  else if (n <=? 8)%nat
  then [(0%nat, firstn n
          (if x64 then le_bytes 8 (pdep 64 0 k 0x0101010101010101) ++ repeat 0 8
           else le_bytes 4 (pdep 32 0 k 0x01010101) ++ le_bytes 4 (pdep 32 0 (k / 2 ^ 4) 0x01010101)))]
  else (* vpmovdb with the store mask 0xffff >> (16 - n) *)
       [(0%nat, firstn n (map (fun i => if Z.testbit k (Z.of_nat i) then 1 else 0) (seq 0 16)))].

(* simd_x86.h 4593-4671: _S_store of a vector mask.  The path for floats without
   SSE2 (MMX) is not modelled. *)
Definition vec_bytes (avx2 : bool) (s : shape) (x : list Z) : list Z :=
  let a := to_intrin s x in
  if (rl s * sz s =? 16)%nat
  then match sz s with
       | 8%nat => let k := cut 32 a in
              map (fun j => if uns 32 (- nth j k 0) =? 0 then 0 else 1) [1%nat; 3%nat]
       | 4%nat => let p := map packs16 (map packs32 (a ++ repeat 0 4) ++ repeat 0 8) in
              store_int false 4 (sn s) (Z.land (nth 0 (as32 p) 0) 0x01010101)
       | 2%nat => firstn (sn s) (map packs16 (map (fun v => v / 2 ^ 15) a ++ repeat 0 8))
       | _ => firstn (sn s) (map (fun v => Z.land v 1) x)
       end
  else match sz s with
       | 8%nat => store_int false 4 (sn s)
                (Z.land (of_lanes (flat_map (byte_signs 8) a)) 0x01010101)
       | 4%nat => let k2 := map (fun v => v / 2 ^ 15) (join 8 (map packs16 (cut 16 a))) in
              firstn (sn s) (map packs16 (k2 ++ repeat 0 8))
       | 2%nat => if avx2
              then firstn (sn s) (map packs16 (map (fun v => v / 2 ^ 15) a))
              else firstn (sn s) (map (Z.land 1) (map packs16 a))
       | _ => firstn (sn s) (map (fun v => Z.land 1 v) x)
       end.
(* simd_x86.h 4593-4671 *)
Definition vec_store (avx2 : bool) (s : shape) (x : list Z) : list (nat * list Z) :=
  [(0%nat, vec_bytes avx2 s x)].

(* simd_builtin.h 2766-2774: generic: mem[i] = v[i] *)
Definition base_store (s : shape) (x : list Z) : list (nat * list Z) :=
  map (fun i => (i, [if nth i x 0 =? 0 then 0 else 1])) (seq 0 (sn s)).
