(* Conversions between mask representations, as used by static_simd_cast,
   simd_cast and resizing_simd_cast of masks (simd.h 2898-2908, 2986-2994):
   _MaskImplX86Mixin::_S_to_maskvector (simd_x86.h 3471-4112), the base version
   (simd_builtin.h 2545-2617), _S_convert (simd_builtin.h 2690-2747,
   simd_fixed_size.h 1905-1912, simd_scalar.h 642-652).

   A vector is the list of its bytes in memory order (x86 is little-endian); an
   undefined byte is None.  x86 with SSE2, registers of 16 and 32 bytes
   (_VecBuiltin is not valid for more, simd_builtin.h 926-949).  On i386
   vectors of 8 bytes are stored in 16 (simd.h 1360-1362): not modelled. *)
From Coq Require Import List ZArith Bool Arith.
From Verif Require Import Prelude BitMask KMask X86Lanes X86Mask BoolStore.
Import ListNotations.
Local Open Scope nat_scope.

Notation byte := (option Z).
(* simd.h 2898-2908, 2986-2994, simd_x86.h 3471-4112, simd_builtin.h 2545-2617, 2690-2747, simd_fixed_size.h 1905-1912 *)
Definition defined (l : list Z) : list byte := map Some l.
(* the byte 0xff or 0x00;
   helper for simd.h 2898-2908, 2986-2994, simd_x86.h 3471-4112, simd_builtin.h 2545-2617 *)
Definition bool_byte (b : bool) : Z := if b then 255%Z else 0%Z.

(* Vector expressions built from the intrinsics that the conversions use.
   VSrc: the argument __k of a vector conversion.  VZero n: n bytes of zero
   (__m128i()).  VPerm idx a: byte shuffle, None for a byte set to zero.
   VCat: the bytes of a, then those of b.  VPacks16/VPacks32: _mm_packs_epi16/
   _mm_packs_epi32 (128 bits).  VCast a: _mm256_castsi128_si256(a), 16 undefined
   bytes on top.  VMovm w n off: n lanes of w bytes from the bits of __k >> off
   (_mm*_movm_epi*, _mm*_maskz_mov_epi*(__k, ~0)).  VOr: bitwise or.
   Helper for simd.h 2898-2908, 2986-2994, simd_x86.h 3471-4112, simd_builtin.h 2545-2617 *)
Inductive vexp :=
| VSrc
| VZero (n : nat)
| VPerm (idx : list (option nat)) (a : vexp)
| VCat (a b : vexp)
| VPacks16 (a b : vexp)
| VPacks32 (a b : vexp)
| VCast (a : vexp)
| VMovm (w n off : nat)
| VOr (a b : vexp).

(* packsswb and packssdw on the bytes of the lanes; undefined if a byte is;
   helper for simd.h 2898-2908, 2986-2994, simd_x86.h 3471-4112, simd_builtin.h 2545-2617 *)
Fixpoint packs16_bytes (l : list byte) : list byte :=
  match l with
  | a :: b :: t =>
      (match a, b with
       | Some x, Some y => Some (packs16 (x + 2 ^ 8 * y))
       | _, _ => None
       end) :: packs16_bytes t
  | _ => []
  end%Z.
(* simd.h 2898-2908, 2986-2994, simd_x86.h 3471-4112, simd_builtin.h 2545-2617, 2690-2747, simd_fixed_size.h 1905-1912 *)
Fixpoint packs32_bytes (l : list byte) : list byte :=
  match l with
  | a :: b :: c :: d :: t =>
      (match a, b, c, d with
       | Some x, Some y, Some z, Some u =>
           map Some (le_bytes 2 (packs32 (x + 2 ^ 8 * y + 2 ^ 16 * z + 2 ^ 24 * u)))
       | _, _, _, _ => [None; None]
       end) ++ packs32_bytes t
  | _ => []
  end%Z.

(* the value of an expression: src are the bytes of the argument, k its bits;
   helper for simd.h 2898-2908, 2986-2994, simd_x86.h 3471-4112, simd_builtin.h 2545-2617 *)
Fixpoint veval (src : list byte) (k : Z) (e : vexp) : list byte :=
  match e with
  | VSrc => src
  | VZero n => repeat (Some 0%Z) n
  | VPerm idx a =>
      let r := veval src k a in
      map (fun i => match i with None => Some 0%Z | Some j => nth j r None end) idx
  | VCat a b => veval src k a ++ veval src k b
  | VPacks16 a b => packs16_bytes (veval src k a ++ veval src k b)
  | VPacks32 a b => packs32_bytes (veval src k a ++ veval src k b)
  | VCast a => veval src k a ++ repeat None 16
  | VMovm w n off =>
      flat_map (fun i => repeat (Some (bool_byte (Z.testbit k (Z.of_nat (off + i))))) w) (seq 0 n)
  | VOr a b =>
      map2 (fun x y => match x, y with Some p, Some q => Some (Z.lor p q) | _, _ => None end)
        (veval src k a) (veval src k b)
  end.

(* simd.h 2128-2157: __lo128, __hi128, __lo256, __hi256 *)
Definition bytes_at (o n : nat) : list (option nat) := map Some (seq o n).
(* simd.h 2128-2157 *)
Definition vlo128 := VPerm (bytes_at 0 16).
(* simd.h 2128-2157 *)
Definition vhi128 := VPerm (bytes_at 16 16).
(* simd.h 2128-2157 *)
Definition vlo256 := VPerm (bytes_at 0 32).
(* simd.h 2128-2157 *)
Definition vhi256 := VPerm (bytes_at 32 32).
(* _mm_unpacklo_epi8/16/32(a, a) and __interleave128_lo(a, a) (simd_x86.h
   60-126): lanes of w bytes of the lower half of a 16-byte register, each twice *)
Definition unpack_idx (w o : nat) : list (option nat) :=
  flat_map (fun i => bytes_at (o + i * w) w ++ bytes_at (o + i * w) w) (seq 0 (8 / w)).
(* simd_x86.h 60-126 *)
Definition vunpacklo (w : nat) := VPerm (unpack_idx w 0).
(* simd_x86.h 60-126 *)
Definition vunpackhi (w : nat) := VPerm (unpack_idx w 8).
(* _mm256_unpacklo_epi8/_ps(a, a): the same in each 128-bit half;
   helper for simd.h 2898-2908, 2986-2994, simd_x86.h 3471-4112, simd_builtin.h 2545-2617 *)
Definition vunpacklo256 (w : nat) := VPerm (unpack_idx w 0 ++ unpack_idx w 16).
(* simd_x86.h 289-322: __xzyw of 32 bytes *)
Definition vxzyw := VPerm (bytes_at 0 8 ++ bytes_at 16 8 ++ bytes_at 8 8 ++ bytes_at 24 8).
(* _mm_shuffle_epi8 with constant indices; -1 gives zero;
   helper for simd.h 2898-2908, 2986-2994, simd_x86.h 3471-4112, simd_builtin.h 2545-2617 *)
Definition vpshufb (idx : list Z) :=
  VPerm (map (fun i => if (i <? 0)%Z then None else Some (Z.to_nat i)) idx).
(* _mm256_shuffle_epi8: indices relative to the 128-bit half;
   helper for simd.h 2898-2908, 2986-2994, simd_x86.h 3471-4112, simd_builtin.h 2545-2617 *)
Definition vpshufb256 (idx : list nat) :=
  VPerm (map Some (firstn 16 idx) ++ map (fun i => Some (16 + i)) (skipn 16 idx)).
(* _mm256_packs_epi16, _mm256_packs_epi32: in each 128-bit half;
   helper for simd.h 2898-2908, 2986-2994, simd_x86.h 3471-4112, simd_builtin.h 2545-2617 *)
Definition vpacks16_256 (a b : vexp) :=
  VCat (VPacks16 (vlo128 a) (vlo128 b)) (VPacks16 (vhi128 a) (vhi128 b)).
(* simd_x86.h 289-322 *)
Definition vpacks32_256 (a b : vexp) :=
  VCat (VPacks32 (vlo128 a) (vlo128 b)) (VPacks32 (vhi128 a) (vhi128 b)).
(* _mm512_srli_epi32(a, 16), _mm512_slli_epi32(a, 16);
   helper for simd.h 2898-2908, 2986-2994, simd_x86.h 3471-4112, simd_builtin.h 2545-2617 *)
Definition vsrl16_512 :=
  VPerm (flat_map (fun i => [Some (4 * i + 2); Some (4 * i + 3); None; None]) (seq 0 16)).
(* simd_x86.h 289-322 *)
Definition vsll16_512 :=
  VPerm (flat_map (fun i => [None; None; Some (4 * i); Some (4 * i + 1)]) (seq 0 16)).
(* simd.h 1952-2040: __zero_extend from 16 to 32 bytes *)
Definition vzext (a : vexp) := VCat a (VZero 16).

(* what the target machine has;
   helper for simd.h 2898-2908, 2986-2994, simd_x86.h 3471-4112, simd_builtin.h 2545-2617 *)
Record cfeat := { c_ssse3 : bool; c_avx : bool; c_avx2 : bool; c_avx512f : bool;
                  c_avx512vl : bool; c_avx512bw : bool; c_avx512dq : bool }.

(* simd.h 1354-1370: sizeof(__vector_type_t<_Up, _ToN>), not i386 *)
Definition vec_size (t n : nat) : nat := bit_ceil (t * n).
(* simd.h 2224-2240: sizeof(__intrinsic_type_t<_Up, _ToN>) *)
Definition intrin_size (t n : nat) : nat := Nat.max 16 (vec_size t n).

(* simd.h 1506-1548: __intrin_bitcast to size bytes: cut; with AVX from 16 to 32
   bytes the upper half is undefined (__builtin_ia32_ps256_ps, 1524-1526);
   otherwise filled with zeros *)
Definition intrin_bitcast (avx : bool) (size : nat) (v : list byte) : list byte :=
  if length v <? size
  then if avx && (length v =? 16) && (size =? 32)
       then v ++ repeat None 16
       else v ++ repeat (Some 0%Z) (size - length v)
  else firstn size v.

(* one element converted from a signed integer of f bytes to one of t bytes:
   _Up(__x[i]);
   helper for simd.h 2898-2908, 2986-2994, simd_x86.h 3471-4112, simd_builtin.h 2545-2617 *)
Definition le_value (l : list Z) : Z := fold_right (fun b a => (b + 2 ^ 8 * a)%Z) 0%Z l.
(* simd.h 1506-1548, 1524-1526 *)
Fixpoint all_defined (l : list byte) : option (list Z) :=
  match l with
  | [] => Some []
  | Some x :: t => match all_defined t with Some r => Some (x :: r) | None => None end
  | None :: _ => None
  end.
(* simd.h 1506-1548, 1524-1526 *)
Definition conv_elem (f t : nat) (l : list byte) : list byte :=
  match all_defined l with
  | Some b => defined (le_bytes t (sgn (8 * Z.of_nat f) (le_value b)))
  | None => repeat None t
  end.
(* the bytes of element i of elements of w bytes;
   helper for simd.h 2898-2908, 2986-2994, simd_x86.h 3471-4112, simd_builtin.h 2545-2617 *)
Definition elem_bytes (w i : nat) (v : list byte) : list byte := firstn w (skipn (i * w) v).

(* elements i < n converted, the others zero: the loop of the base version
   (simd_builtin.h 2607-2613) and the constant path (simd_x86.h 3792-3798) *)
Definition conv_loop (f n t lanes : nat) (src : list byte) : list byte :=
  flat_map (fun i => if i <? n then conv_elem f t (elem_bytes f i src)
                     else repeat (Some 0%Z) t) (seq 0 lanes).

(* simd_builtin.h 2574-2615: base _S_to_maskvector(_SimdWrapper), vector to vector *)
Definition base_vec_to_vec (f n t m : nat) (src : list byte) : list byte :=
  if (t =? f) && (length src =? vec_size t m) then src
  else conv_loop f n t (vec_size t m / t) src.

(* simd_x86.h 3806-4081: the vector expression for run-time masks, from elements
   of f bytes in a vector of s bytes to elements of t <> f bytes with an
   intrinsic type of u bytes; None: no such branch, the base version is used *)
Definition conv_vexp (ft : cfeat) (f s t u : nat) : option vexp :=
  let k := VSrc in
  let z := VZero 16 in
  let lo := vlo128 k in
  let hi := vhi128 k in
  let m1 n := repeat (-1)%Z n in
  if (u =? 16) && (s =? 16) then              (* SSE -> SSE, 3808-3891 *)
    if (f =? 4) && (t =? 8) then Some (vunpacklo 4 k)
    else if (f =? 2) && (t =? 8) then Some (vunpacklo 4 (vunpacklo 2 k))
    else if (f =? 1) && (t =? 8) then Some (vunpacklo 4 (vunpacklo 2 (vunpacklo 1 k)))
    else if (f =? 8) && (t =? 4) then Some (VPacks32 k z)
    else if (f =? 2) && (t =? 4) then Some (vunpacklo 2 k)
    else if (f =? 1) && (t =? 4) then Some (vunpacklo 2 (vunpacklo 1 k))
    else if (f =? 8) && (t =? 2) then
      if negb (c_ssse3 ft) then Some (VPacks32 (VPacks32 k z) z)
      else Some (VPerm ([Some 6; Some 7; Some 14; Some 15] ++ repeat None 12) k)
    else if (f =? 4) && (t =? 2) then Some (VPacks32 k z)
    else if (f =? 1) && (t =? 2) then Some (vunpacklo 1 k)
    else if (f =? 8) && (t =? 1) && c_ssse3 ft then Some (vpshufb ([7; 15]%Z ++ m1 14) k)
    else if (f =? 8) && (t =? 1) then Some (VPacks16 (VPacks32 (VPacks32 k z) z) z)
    else if (f =? 4) && (t =? 1) && c_ssse3 ft then Some (vpshufb ([3; 7; 11; 15]%Z ++ m1 12) k)
    else if (f =? 4) && (t =? 1) then Some (VPacks16 (VPacks32 k z) z)
    else if (f =? 2) && (t =? 1) then Some (VPacks16 k z)
    else None
  else if (u =? 32) && (s =? 32) then         (* AVX -> AVX, 3892-3958 *)
    if f =? t * 2 then Some (VCast (VPacks16 lo hi))
    else if f =? t * 4 then Some (VCast (VPacks16 (VPacks16 lo hi) z))
    else if f =? t * 8 then Some (VCast (vpshufb ([3; 7; 11; 15]%Z ++ m1 12) (VPacks16 lo hi)))
    else if f * 2 =? t then
      let y := vxzyw k in
      if negb (c_avx2 ft) && (f =? 4) then Some (vunpacklo256 4 y) else Some (vunpacklo256 1 y)
    else if f * 4 =? t then
      let y := vunpacklo 1 lo in Some (VCat (vunpacklo 2 y) (vunpackhi 2 y))
    else if (f =? 1) && (t =? 8) then
      let y := vunpacklo 2 (vunpacklo 1 lo) in Some (VCat (vunpacklo 4 y) (vunpackhi 4 y))
    else None
  else if (u =? 32) && (s =? 16) then         (* SSE -> AVX, 3959-4044 *)
    if f * 2 =? t then Some (VCat (vunpacklo 1 k) (vunpackhi 1 k))
    else if f * 4 =? t then
      if c_avx2 ft
      then Some (vpshufb256 (flat_map (fun i => repeat i 4) (seq 0 8)) (VCat k k))
      else Some (VCat (vpshufb (flat_map (fun i => repeat (Z.of_nat i) 4) (seq 0 4)) k)
                      (vpshufb (flat_map (fun i => repeat (Z.of_nat i) 4) (seq 4 4)) k))
    else if f * 8 =? t then
      if c_avx2 ft
      then Some (vpshufb256 (flat_map (fun i => repeat i 8) (seq 0 4)) (VCat k k))
      else Some (VCat (vpshufb (flat_map (fun i => repeat (Z.of_nat i) 8) (seq 0 2)) k)
                      (vpshufb (flat_map (fun i => repeat (Z.of_nat i) 8) (seq 2 2)) k))
    else if f =? t * 2 then Some (vzext (VPacks16 k z))
    else if (f =? 8) && (t =? 2) then Some (vzext (vpshufb ([6; 7; 14; 15]%Z ++ m1 12) k))
    else if (f =? 4) && (t =? 1) then Some (vzext (vpshufb ([3; 7; 11; 15]%Z ++ m1 12) k))
    else if (f =? 8) && (t =? 1) then Some (vzext (vpshufb ([7; 15]%Z ++ m1 14) k))
    else None
  else if (u =? 16) && (s =? 32) then         (* AVX -> SSE, 4045-4080 *)
    if f =? t * 2 then Some (VPacks16 lo hi)
    else if f =? t * 4 then Some (VPacks16 (VPacks16 lo hi) z)
    else if (f =? 8) && (t =? 1) then Some (vpshufb ([3; 7; 11; 15]%Z ++ m1 12) (VPacks16 lo hi))
    else if f * 2 =? t then Some (vunpacklo 1 lo)
    else if f * 4 =? t then Some (vunpacklo 1 (vunpacklo 1 lo))
    else if f * 8 =? t then Some (vunpacklo 1 (vunpacklo 1 (vunpacklo 1 lo)))
    else None
  else None.

(* simd_builtin.h 1022-1032: _S_masked of a vector mask of n elements of f bytes *)
Definition masked_bytes (f n : nat) (v : list byte) : list byte :=
  firstn (f * n) v ++ repeat (Some 0%Z) (length v - f * n).

(* simd_x86.h 3768-4112: _S_to_maskvector<_Up, _ToN>(_SimdWrapper<_Tp, _Np>),
   _Tp not bool; f, n: sizeof(_Tp) and _Np; t, m: sizeof(_Up) and _ToN; const:
   the argument is a compile-time constant *)
Definition x86_vec_to_vec (ft : cfeat) (const : bool) (f n t m : nat) (src : list byte) : list byte :=
  if (t =? f) && (length src =? vec_size t m)
  then if m <=? n then src else masked_bytes f n src
  else if const then conv_loop f (Nat.min m n) t (vec_size t m / t) src
  else if f =? t then intrin_bitcast (c_avx ft) (vec_size t m) src
  else match conv_vexp ft f (length src) t (intrin_size t m) with
       | Some e => intrin_bitcast (c_avx ft) (vec_size t m) (veval src 0 e)
       | None => base_vec_to_vec f n t m src
       end.

(* simd_x86.h 3471-3480, simd_builtin.h 2546-2553: _S_to_maskvector(bool) *)
Definition bool_to_vec (b : bool) (t m : nat) : list byte :=
  repeat (Some (bool_byte b)) t ++ repeat (Some 0%Z) (vec_size t m - t).

(* lanes of t bytes, all ones or zero;
   helper for simd.h 2898-2908, 2986-2994, simd_x86.h 3471-4112, simd_builtin.h 2545-2617 *)
Definition spread (t : nat) (l : list bool) : list byte :=
  flat_map (fun b => repeat (Some (bool_byte b)) t) l.

(* simd_x86.h 3490-3717: the expression for run-time bit masks with AVX-512 *)
Definition bits_vexp (ft : cfeat) (t u : nat) : option vexp :=
  let bwvl := c_avx512bw ft && c_avx512vl ft in
  let dqvl := c_avx512dq ft && c_avx512vl ft in
  let as32 := VMovm 4 16 0 in
  if t =? 1 then
    if u =? 16 then
      if bwvl then Some (VMovm 1 16 0)
      else if c_avx512bw ft then Some (vlo128 (VMovm 1 64 0))
      else if c_avx512f ft then
        let as16 := vxzyw (vpacks32_256 (vlo256 as32) (vhi256 as32)) in
        Some (VPacks16 (vlo128 as16) (vhi128 as16))
      else None
    else if u =? 32 then
      if bwvl then Some (VMovm 1 32 0)
      else if c_avx512bw ft then Some (vlo256 (VMovm 1 64 0))
      else if c_avx512f ft then
        let as16 := VOr (vsrl16_512 as32) (vsll16_512 (VMovm 4 16 16)) in
        let x := vxzyw (vpacks16_256 (vlo256 as16) (vhi256 as16)) in
        Some (vxzyw (vpshufb256 [0; 2; 4; 6; 8; 10; 12; 14; 1; 3; 5; 7; 9; 11; 13; 15;
                                 0; 2; 4; 6; 8; 10; 12; 14; 1; 3; 5; 7; 9; 11; 13; 15] x))
      else None
    else None
  else if t =? 2 then
    if u =? 16 then
      if bwvl then Some (VMovm 2 8 0)
      else if c_avx512bw ft then Some (vlo128 (VMovm 2 32 0))
      else if c_avx512f ft then
        let as32 := if c_avx512vl ft then VMovm 4 8 0 else vlo256 as32 in
        Some (VPacks32 (vlo128 as32) (vhi128 as32))
      else None
    else if u =? 32 then
      if bwvl then Some (VMovm 2 16 0)
      else if c_avx512bw ft then Some (vlo256 (VMovm 2 32 0))
      else if c_avx512f ft then Some (vxzyw (vpacks32_256 (vlo256 as32) (vhi256 as32)))
      else None
    else None
  else if t =? 4 then
    if u =? 16 then
      if dqvl then Some (VMovm 4 4 0)
      else if c_avx512dq ft then Some (vlo128 (VMovm 4 16 0))
      else if c_avx512vl ft then Some (VMovm 4 4 0)
      else if c_avx512f ft then Some (vlo128 (VMovm 4 16 0))
      else None
    else if u =? 32 then
      if dqvl then Some (VMovm 4 8 0)
      else if c_avx512dq ft then Some (vlo256 (VMovm 4 16 0))
      else if c_avx512vl ft then Some (VMovm 4 8 0)
      else if c_avx512f ft then Some (vlo256 (VMovm 4 16 0))
      else None
    else None
  else if t =? 8 then
    if u =? 16 then
      if dqvl then Some (VMovm 8 2 0)
      else if c_avx512dq ft then Some (vlo128 (VMovm 8 8 0))
      else if c_avx512vl ft then Some (VMovm 8 2 0)
      else if c_avx512f ft then Some (vlo128 (VMovm 8 8 0))
      else None
    else if u =? 32 then
      if dqvl then Some (VMovm 8 4 0)
      else if c_avx512dq ft then Some (vlo256 (VMovm 8 8 0))
      else if c_avx512vl ft then Some (VMovm 8 4 0)
      else if c_avx512f ft then Some (vlo256 (VMovm 8 8 0))
      else None
    else None
  else None.

Local Open Scope Z_scope.

(* lane i is compared with zero after masking one bit of byte i / 8: simd_x86.h
   3515-3530 (SSSE3) and 3556-3574 (AVX2); k fits in 64 bits *)
Definition pshufb_bit (k : Z) (i : nat) : bool :=
  let byte := (uns 64 k / 2 ^ (8 * Z.of_nat (i / 8))) mod 2 ^ 8 in
  negb (Z.land byte (2 ^ Z.of_nat (i mod 8)) =? 0).

(* simd_x86.h 3578-3590: min(_ToN, _Np) <= 4, 32-bit multiply *)
Definition chars4 (np : nat) (k : Z) : list byte :=
  let x := if (7 <? np)%nat then Z.land k 0x0f else k in
  defined (le_bytes 4 (uns 32 (Z.land (uns 32 (uns 32 x * 0x204081)) 0x01010101 * 0xff))).
(* simd_x86.h 3591-3603: min(_ToN, _Np) <= 7, 64-bit multiply *)
Definition chars7 (np : nat) (k : Z) : list byte :=
  let x := if (7 <? np)%nat then Z.land k 0x7f else k in
  defined (le_bytes 8 (uns 64 (Z.land (uns 64 (x * 0x40810204081)) 0x0101010101010101 * 0xff))).
(* memcpy of min(sizeof(r), sizeof(chars)) bytes to the zero vector r;
   helper for simd.h 2898-2908, 2986-2994, simd_x86.h 3471-4112, simd_builtin.h 2545-2617 *)
Definition copy_to_zero (size : nat) (v : list byte) : list byte :=
  firstn size v ++ repeat (Some 0) (size - length v).

(* simd_x86.h 3719-3764: the branches after the AVX-512 ones *)
Definition bits_tail (ft : cfeat) (t m : nat) (k : Z) : list byte :=
  let w := (8 * t)%nat in
  let lanes := (vec_size t m / t)%nat in
  if (m =? 2)%nat
  then spread t (Z.testbit k 0 :: Z.testbit k 1 :: repeat false (lanes - 2))
  else if negb (c_avx2 ft) && c_avx ft && (vec_size t m =? 32)%nat
  then (* cmp_ps/cmp_pd(k & bit, 0, NEQ_UQ); the operands are +0 or denormals *)
    spread t (map (fun i => negb (Z.land (uns (Z.of_nat w) k) (2 ^ Z.of_nat i) =? 0)) (seq 0 lanes))
  else if (m <=? w)%nat
  then
    spread t (map (fun i =>
      let bit := Z.land (uns (Z.of_nat w) k) (if (i <? m)%nat then 2 ^ Z.of_nat i else 0) in
      if (m <? w)%nat then 0 <? sgn (Z.of_nat w) bit else negb (bit =? 0)) (seq 0 lanes))
  else
    spread t (map (fun i =>
      negb (Z.land (uns (Z.of_nat w) (k / 2 ^ Z.of_nat (w * (i / w)))) (2 ^ Z.of_nat (i mod w)) =? 0))
      (seq 0 lanes)).

(* simd_x86.h 3481-3766: _S_to_maskvector<_Up, _ToN>(_SanitizedBitMask<_Np>) *)
Definition x86_bits_to_vec (ft : cfeat) (const : bool) (np t m : nat) (k : Z) : list byte :=
  let size := vec_size t m in
  let u := intrin_size t m in
  if (np =? 1)%nat then bool_to_vec (negb (k =? 0)) t m
  else if const
  then spread t (map (fun i => (i <? Nat.min m np)%nat && Z.testbit k (Z.of_nat i)) (seq 0 (size / t)))
  else match bits_vexp ft t u with
       | Some e => intrin_bitcast (c_avx ft) size (veval [] k e)
       | None =>
           if (t =? 1)%nat && (u =? 16)%nat && c_ssse3 ft
           then intrin_bitcast (c_avx ft) size (spread 1 (map (pshufb_bit k) (seq 0 16)))
           else if (t =? 1)%nat && (u =? 32)%nat && c_avx2 ft
           then spread 1 (map (pshufb_bit k) (seq 0 32))
           else if (t =? 1)%nat && (Nat.min m np <=? 4)%nat then copy_to_zero size (chars4 np k)
           else if (t =? 1)%nat && (Nat.min m np <=? 7)%nat then copy_to_zero size (chars7 np k)
           else bits_tail ft t m k
       end.

(* simd_builtin.h 2556-2571: base _S_to_maskvector(_BitMask) *)
Definition base_bits_to_vec (np t m : nat) (b : bitmask) : list byte :=
  spread t (map (fun i => (i <? np)%nat && bm_get np b i) (seq 0 (vec_size t m / t))).

(* simd_builtin.h 2620-2634: base _S_to_bits: the top bits of the lanes *)
Definition base_to_bits (s : shape) (x : list Z) : Z :=
  fold_left (fun r i => Z.lor r (Z.shiftl (nth i x 0 / 2 ^ (lw s - 1)) (Z.of_nat i)))
    (seq 0 (sn s)) 0.

(* A mask object: one bool (simd_abi::scalar), the bits of an AVX-512 mask
   (_SimdWrapper<bool, N>), a _SanitizedBitMask (fixed_size), or a vector given
   by its lanes.
   Helper for simd.h 2898-2908, 2986-2994, simd_x86.h 3471-4112, simd_builtin.h 2545-2617 *)
Inductive mask_obj :=
| MBool (b : bool)
| MBits (n : nat) (k : Z)
| MFixed (n : nat) (b : bitmask)
| MVec (s : shape) (x : list Z).

(* simd_builtin.h 2620-2634 *)
Definition lane_bytes (s : shape) (x : list Z) : list byte := defined (flat_map (le_bytes (sz s)) x).

(* _S_to_bits of every representation and its number of bits: simd_scalar.h
   637-640, simd_x86.h 4115-4240, simd_fixed_size.h 1893-1902 *)
Definition obj_to_bits (packs : bool) (o : mask_obj) : nat * bitmask :=
  match o with
  | MBool b => (1%nat, bm_of_ullong 1 (b2z b))
  | MBits n k => (n, bm_sanitized n false (bm_of_ullong n k))
  | MFixed n b => (n, b)
  | MVec s x => (sn s, bm_of_ullong (sn s) (x86_to_bits packs s x))
  end.

(* simd_scalar.h 648-651: to simd_abi::scalar: __x[0] (simd.h 4402-4408; the
   element of a vector mask is read as bool) *)
Definition to_scalar (o : mask_obj) : bool :=
  match o with
  | MBool b => b
  | MBits n k => k_get k 0
  | MFixed n b => bm_get n b 0
  | MVec s x => negb (nth 0 x 0 =? 0)
  end.

(* simd_builtin.h 2727-2741 (and simd_x86.h 4435-4442: _S_from_bitmask from a
   bitset of the same size): to an AVX-512 mask of m elements; the object holds
   max(8, bit_ceil(m)) bits *)
Definition to_kmask (packs : bool) (m : nat) (o : mask_obj) : Z :=
  match o with
  | MBool b => kword m (b2z b)
  | MBits n k => kword m k
  | MFixed n b => kword m (bm_to_ullong b)
  | MVec s x => kword m (bm_to_ullong (snd (obj_to_bits packs (MVec s x))))
  end.

(* simd_fixed_size.h 1905-1912: to fixed_size<m> *)
Definition to_fixed (packs : bool) (m : nat) (o : mask_obj) : bitmask :=
  let '(n, b) := obj_to_bits packs o in
  bm_sanitized m (bm_extract_flag n true 0 m) (bm_extract n 0 m b).

(* simd_builtin.h 2742-2746 (and simd_x86.h 4435-4442: _S_from_bitmask): to a
   vector mask of m elements of t bytes *)
Definition to_vec (ft : cfeat) (const : bool) (t m : nat) (o : mask_obj) : list byte :=
  match o with
  | MBool b => bool_to_vec b t m
  | MBits n k => x86_bits_to_vec ft const n t m (bm_to_ullong (bm_sanitized n false (bm_of_ullong n k)))
  | MFixed n b => x86_bits_to_vec ft const n t m (bm_to_ullong b)
  | MVec s x => x86_vec_to_vec ft const (sz s) (sn s) t m (lane_bytes s x)
  end.
