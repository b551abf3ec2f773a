(* Model of the x86 shift operators: /repo/experimental/bits/simd_x86.h
   1531-2208.  Every branch of the if constexpr cascade is a function. *)
From Coq Require Import ZArith List Bool.
From Verif Require Import Prelude X86Lanes.
Import ListNotations.
Open Scope Z_scope.

(* ------------- _S_bit_shift_left(x, int), 8-bit lanes ------------------- *)
(* simd_x86.h 1550-1587: constant count; bytes = sizeof(x) *)
Definition shl8_const (oob : oob_t) (bytes : nat) (y : Z) (x : list Z) : list Z :=
  if y =? 0 then x
  else if y =? 1 then map2 (padd 8) x x
  else if y =? 2 then let x := map2 (padd 8) x x in map2 (padd 8) x x
  else if (2 <? y) && (y <? 8) then
    if Nat.ltb 4 bytes then
      (* 1563-1570 *)
      map (fun v => Z.land v ((255 * 2 ^ y) mod 2 ^ 8)) (as8 (map (vshl oob 32 y) (as32 x)))
    else
      (* 1571-1582: the whole register as one (promoted) integer *)
      let mask := (Z.land 255 (255 * 2 ^ y) * 16843009) mod 2 ^ 32 in
      let op v := Z.land ((v * 2 ^ y) mod 2 ^ 32) mask in
      if Nat.eqb bytes 2 then cut 8 (map (fun v => op v mod 2 ^ 16) (join 8 x))
      else as8 (map op (as32 x))
  else map (fun _ => 0) x.
(* 1590-1606: AVX-512BW, _mm*_cvtepi8_epi16, sllv, cvtepi16_epi8 *)
Definition shl8_avx512 (y : Z) (x : list Z) : list Z :=
  trunc_to 8 (map (psll 16 y) (sext 8 16 x)).
(* 1610-1613 and 1624-1627: the byte mask k *)
Definition shl8_k (y : Z) (m : nat) : list Z :=
  let k := map (psll 16 y) (map (psll 16 8) (repeat (2 ^ 16 - 1) m)) in
  cut 8 (map2 Z.lor k (map (psrl 16 8) k)).
(* 1607-1615: AVX2, 32-byte registers *)
Definition shl8_avx2 (y : Z) (x : list Z) : list Z :=
  map2 Z.land (as8 (map (psll 32 y) (as32 x))) (shl8_k y (length x / 2)).
(* 1622-1629: SSE2 *)
Definition shl8_sse (y : Z) (x : list Z) : list Z :=
  map2 Z.land (cut 8 (map (psll 16 y) (join 8 x))) (shl8_k y (length x / 2)).

(* ------------- _S_bit_shift_left(x, y) ---------------------------------- *)
(* 1655-1679: AVX-512BW, 8-bit lanes *)
Definition shlv8_avx512 (x y : list Z) : list Z :=
  trunc_to 8 (map2 (psll 16) (zext y) (zext x)).
(* one step of 1680-1720: x = mask[7] ? (x << k) & keep : x *)
Definition shlv8_step (oob : oob_t) (k keep : Z) (mask x : list Z) : list Z :=
  blendv 8 mask x (map (fun v => Z.land v keep) (cut 8 (map (vshl oob 16 k) (join 8 x)))).
(* 1680-1701 (pblendvb) and 1702-1720 (schar(mask) < 0 ? :) *)
Definition shlv8_sse (oob : oob_t) (x y : list Z) : list Z :=
  let mask := cut 8 (map (vshl oob 16 5) (join 8 y)) in
  let x := shlv8_step oob 4 240 mask x in
  let mask := map2 (padd 8) mask mask in
  let x := shlv8_step oob 2 252 mask x in
  let mask := map2 (padd 8) mask mask in
  let x1 := map2 (padd 8) x x in
  let x := blendv 8 mask x x1 in
  map2 (fun v c => if Z.land c 248 =? 0 then v else 0) x y.
(* 1726-1733, 1742-1747: AVX-512BW, 16-bit lanes *)
Definition shlv16_avx512 (x y : list Z) : list Z := map2 (psll 16) y x.
(* 1734-1741, 1748-1755: AVX2, 16-bit lanes *)
Definition shlv16_avx2 (oob : oob_t) (x y : list Z) : list Z :=
  let ux := join 16 x in
  let uy := join 16 y in
  blend_aa (cut 16 (map2 (vshl oob 32) (map (fun v => Z.land v 65535) uy) ux))
           (cut 16 (map2 (vshl oob 32) (map (vshr oob 32 16) uy) (map (fun v => Z.land v 4294901760) ux))).
(* 1756-1770: SSE2, 16-bit lanes *)
Definition shlv16_sse (oob : oob_t) (x y : list Z) : list Z :=
  let yu := join 16 (map (padd 16 127) y) in
  let lo := map cvttps (map (vshl oob 32 23) yu) in
  let hi := map (vshl oob 32 16) (map cvttps (map (vshl oob 32 23) (map (vshr oob 32 16) yu))) in
  map2 (pmul 16) x (cut 16 (map2 Z.lor lo hi)).
(* 1774-1781: SSE2, 32-bit lanes; 0x3f800000 *)
Definition shlv32_sse (oob : oob_t) (x y : list Z) : list Z :=
  map2 (pmul 32) x (map cvttps (map (fun v => padd 32 (vshl oob 32 23 v) 1065353216) y)).
(* 1782-1794: SSE2, 64-bit lanes; psllq takes its count from the low lane *)
Definition shlv64_sse (x y : list Z) : list Z :=
  match x, y with
  | [x0; x1], [y0; y1] =>
      let lo := [psll 64 y0 x0; psll 64 y0 x1] in
      let hi := [psll 64 y1 x0; psll 64 y1 x1] in
      [nth 0 lo 0; nth 1 hi 0]
  | _, _ => []
  end.

(* ------------- _S_bit_shift_right(x, int) ------------------------------- *)
(* 1817-1819: unsigned 8-bit lanes; the conversion _Up(0xff >> y) is scalar *)
Definition shr8u (oob : oob_t) (y : Z) (x : list Z) : list Z :=
  map (fun v => Z.land v (255 / 2 ^ y)) (cut 8 (map (vshr oob 16 y) (join 8 x))).
(* 1821-1830: signed 8-bit lanes *)
Definition shr8s (oob : oob_t) (y : Z) (x : list Z) : list Z :=
  let w := join 8 x in
  let hi := map (vshl oob 16 8) (map (vsar oob 16 (y + 8)) w) in
  let lo := map (vshr oob 16 8) (map (vsar oob 16 y) (map (vshl oob 16 8) w)) in
  cut 8 (map2 Z.lor hi lo).
(* 1832-1848: signed 64-bit lanes *)
Definition shr64s (oob : oob_t) (y : Z) (x : list Z) : list Z :=
  if 32 <? y then
    map2 Z.lor
      (map (fun v => Z.land v (2 ^ 64 - 2 ^ 32)) (join 32 (map (vsar oob 32 32) (cut 32 x))))
      (join 32 (map (vsar oob 32 (y - 32)) (cut 32 (map (vshr oob 64 32) x))))
  else
    map2 Z.lor
      (map (vshr oob 64 y) x)
      (join 32 (map (vsar oob 32 y) (cut 32 (map (fun v => Z.land v (2 ^ 63)) x)))).

(* ------------- _S_bit_shift_right(x, y) --------------------------------- *)
(* 1867-1886: AVX-512BW, 8-bit lanes *)
Definition shrv8s_avx512 (x y : list Z) : list Z :=
  trunc_to 8 (map2 (psra 16) (sext 8 16 y) (sext 8 16 x)).
(* simd_x86.h 1867-1886 *)
Definition shrv8u_avx512 (x y : list Z) : list Z :=
  trunc_to 8 (map2 (psrl 16) (zext y) (zext x)).
(* even bytes of a, odd bytes zero: maskz with 0x5555...
   Helper for simd_x86.h 1531-2208 *)
Fixpoint maskz_55 (a : list Z) : list Z :=
  match a with x0 :: _ :: r => x0 :: 0 :: maskz_55 r | _ => [] end.
(* 1887-1894: AVX-512BW, 64 bytes, signed.  set1_epi16(8) as bytes is 8, 0, ... *)
Fixpoint set1_16 (m : nat) : list Z := match m with O => [] | S m => 8 :: 0 :: set1_16 m end.
(* simd_x86.h 1887-1894 *)
Definition shrv8s_64 (x y : list Z) : list Z :=
  blend_aa
    (cut 8 (map2 (psra 16) (join 8 (maskz_55 (map2 (padd 8) y (set1_16 (length y / 2)))))
                 (map (psll 16 8) (join 8 x))))
    (cut 8 (map2 (psra 16) (map (psrl 16 8) (join 8 y)) (join 8 x))).
(* 1895-1901: AVX-512BW, 64 bytes, unsigned *)
Definition shrv8u_64 (x y : list Z) : list Z :=
  blend_aa
    (cut 8 (map2 (psrl 16) (join 8 (maskz_55 y)) (join 8 (maskz_55 x))))
    (cut 8 (map2 (psrl 16) (map (psrl 16 8) (join 8 y)) (join 8 x))).
(* 1913-1955: AVX2.  One 32-bit lane; sh is the shift operator of int or
   unsigned int *)
Definition shrv8_avx2_lane (sh : oob_t -> Z -> Z -> Z -> Z) (oob : oob_t) (x y : Z) : Z :=
  let r3 := Z.land (sh oob 32 (vshr oob 32 24 y) x) 4278190080 in
  let r2 := Z.land (sh oob 32 (vshr oob 32 24 (vshl oob 32 8 y)) (vshl oob 32 8 x)) 4278190080 in
  let r1 := Z.land (sh oob 32 (vshr oob 32 24 (vshl oob 32 16 y)) (vshl oob 32 16 x)) 4278190080 in
  let r0 := sh oob 32 (vshr oob 32 24 (vshl oob 32 24 y)) (vshl oob 32 24 x) in
  Z.lor (Z.lor (Z.lor r3 (vshr oob 32 8 r2)) (vshr oob 32 16 r1)) (vshr oob 32 24 r0).
(* simd_x86.h 1913-1955 *)
Definition shrv8s_avx2 (oob : oob_t) (x y : list Z) : list Z :=
  as8 (map2 (shrv8_avx2_lane vsar oob) (as32 x) (as32 y)).
(* simd_x86.h 1913-1955 *)
Definition shrv8u_avx2 (oob : oob_t) (x y : list Z) : list Z :=
  as8 (map2 (shrv8_avx2_lane vshr oob) (as32 x) (as32 y)).
(* one step of 1956-1980 and 2021-2037: x = mask[7] ? (x16 >> k) & keep : x *)
Definition shrv8u_step (oob : oob_t) (k keep : Z) (mask x : list Z) : list Z :=
  blendv 8 mask x (cut 8 (map (fun v => Z.land v keep) (map (vshr oob 16 k) (join 8 x)))).
(* 1956-1980 (SSE4.1) and 2021-2037 (SSE2), unsigned *)
Definition shrv8u_sse (oob : oob_t) (x y : list Z) : list Z :=
  let mask := cut 8 (map (vshl oob 16 5) (join 8 y)) in
  let x := shrv8u_step oob 4 65295 mask x in
  let mask := map2 (padd 8) mask mask in
  let x := shrv8u_step oob 2 65343 mask x in
  let mask := map2 (padd 8) mask mask in
  let x := shrv8u_step oob 1 65407 mask x in
  map2 (fun v c => if Z.land c 248 =? 0 then v else 0) x y.
(* one step of 1981-2020: byte-wise blend of xh by mask, of xl by mask << 8 *)
Definition shrv8s_step41 (oob : oob_t) (k : Z) (mask : list Z) (x : list Z) : list Z :=
  join 8 (blendv 8 mask (cut 8 x) (cut 8 (map (vsar oob 16 k) x))).
(* simd_x86.h 1981-2020 *)
Definition maskl (oob : oob_t) (mask : list Z) : list Z := cut 8 (map (vshl oob 16 8) (join 8 mask)).
(* 1981-2020: SSE4.1, signed *)
Definition shrv8s_sse41 (oob : oob_t) (x y : list Z) : list Z :=
  let mask := cut 8 (map (vshl oob 16 5) (join 8 y)) in
  let xh := join 8 x in
  let xl := map (vshl oob 16 8) (join 8 x) in
  let xh := shrv8s_step41 oob 4 mask xh in
  let xl := shrv8s_step41 oob 4 (maskl oob mask) xl in
  let mask := map2 (padd 8) mask mask in
  let xh := shrv8s_step41 oob 2 mask xh in
  let xl := shrv8s_step41 oob 2 (maskl oob mask) xl in
  let mask := map2 (padd 8) mask mask in
  let xh := shrv8s_step41 oob 1 mask xh in
  let xl := shrv8s_step41 oob 1 (maskl oob mask) xl in
  let r := cut 8 (map2 Z.lor (map (fun v => Z.land v 65280) xh) (map (vshr oob 16 8) xl)) in
  map2 (fun v c => if Z.land c 248 =? 0 then v else 0) r y.
(* 2039-2067: SSE2, signed; maskh > 0x7fff ? xh4 : xh *)
Definition sel16 (m a b : list Z) : list Z := map3 (fun k x y => if 32767 <? k then y else x) m a b.
(* simd_x86.h 2039-2067 *)
Definition shrv8s_sse2 (oob : oob_t) (x y : list Z) : list Z :=
  let mh := map (vshl oob 16 5) (join 8 y) in
  let ml := map (vshl oob 16 13) (join 8 y) in
  let xh := join 8 x in
  let xl := map (vshl oob 16 8) (join 8 x) in
  let xh := sel16 mh xh (map (vsar oob 16 4) xh) in
  let xl := sel16 ml xl (map (vsar oob 16 4) xl) in
  let mh := map2 (padd 16) mh mh in
  let ml := map2 (padd 16) ml ml in
  let xh := sel16 mh xh (map (vsar oob 16 2) xh) in
  let xl := sel16 ml xl (map (vsar oob 16 2) xl) in
  let mh := map2 (padd 16) mh mh in
  let ml := map2 (padd 16) ml ml in
  let xh := sel16 mh xh (map (vsar oob 16 1) xh) in
  let xl := sel16 ml xl (map (vsar oob 16 1) xl) in
  let r := cut 8 (map2 Z.lor (map (fun v => Z.land v 65280) xh) (map (vshr oob 16 8) xl)) in
  map2 (fun v c => if Z.land c 248 =? 0 then v else 0) r y.
(* 2086-2097: AVX-512BW, 16-bit lanes *)
Definition shrv16s_avx512 (x y : list Z) : list Z := map2 (psra 16) y x.
(* simd_x86.h 2086-2097 *)
Definition shrv16u_avx512 (x y : list Z) : list Z := map2 (psrl 16) y x.
(* 2098-2104: AVX2, signed 16-bit lanes *)
Definition shrv16s_avx2 (oob : oob_t) (x y : list Z) : list Z :=
  let ix := join 16 x in
  let iy := join 16 y in
  blend_aa
    (cut 16 (map (vsar oob 32 16)
      (map2 (vsar oob 32) (map (fun v => Z.land v 65535) iy) (map (vshl oob 32 16) ix))))
    (cut 16 (map2 (vsar oob 32) (map (vsar oob 32 16) iy) ix)).
(* 2105-2110: AVX2, unsigned 16-bit lanes *)
Definition shrv16u_avx2 (oob : oob_t) (x y : list Z) : list Z :=
  let ux := join 16 x in
  let uy := join 16 y in
  blend_aa
    (cut 16 (map2 (vshr oob 32) (map (fun v => Z.land v 65535) uy) (map (fun v => Z.land v 65535) ux)))
    (cut 16 (map2 (vshr oob 32) (map (vshr oob 32 16) uy) ux)).
(* 2111-2137: SSE4.1, 16-bit lanes; sh is >> of the element type *)
Definition shrv16_step41 (mask x x' : list Z) : list Z :=
  join 8 (blendv 8 (cut 8 mask) (cut 8 x) (cut 8 x')).
(* simd_x86.h 2111-2137 *)
Definition shrv16_sse41 (sh : oob_t -> Z -> Z -> Z -> Z) (oob : oob_t) (x y : list Z) : list Z :=
  let mask := map2 Z.lor (map (vshl oob 16 3) y) (map (vshl oob 16 11) y) in
  let x := shrv16_step41 mask x (map (fun _ => 0) x) in
  let mask := map2 (padd 16) mask mask in
  let x := shrv16_step41 mask x (map (sh oob 16 8) x) in
  let mask := map2 (padd 16) mask mask in
  let x := shrv16_step41 mask x (map (sh oob 16 4) x) in
  let mask := map2 (padd 16) mask mask in
  let x := shrv16_step41 mask x (map (sh oob 16 2) x) in
  let mask := map2 (padd 16) mask mask in
  shrv16_step41 mask x (map (sh oob 16 1) x).
(* 2138-2156: SSE2, 16-bit lanes *)
Definition shrv16_sse2 (sh : oob_t -> Z -> Z -> Z -> Z) (oob : oob_t) (x y : list Z) : list Z :=
  let k := map (vshl oob 16 11) y in
  let x := blendv 16 k x (map (fun _ => 0) x) in
  let k := map2 (padd 16) k k in
  let x := blendv 16 k x (map (sh oob 16 8) x) in
  let k := map2 (padd 16) k k in
  let x := blendv 16 k x (map (sh oob 16 4) x) in
  let k := map2 (padd 16) k k in
  let x := blendv 16 k x (map (sh oob 16 2) x) in
  let k := map2 (padd 16) k k in
  blendv 16 k x (map (sh oob 16 1) x).
(* 2160-2181: SSE2, unsigned 32-bit lanes; 0x4f000000.  pmuludq multiplies the
   even lanes to 64 bits; r13 holds the odd lanes *)
Definition shrv32u_factor (oob : oob_t) (y : list Z) : list Z :=
  map cvttps (map (fun v => (1325400064 - vshl oob 32 23 v) mod 2 ^ 32) y).
(* simd_x86.h 2160-2181 *)
Definition shrv32u_sse41 (oob : oob_t) (x y : list Z) : list Z :=
  match x, shrv32u_factor oob y with
  | [x0; x1; x2; x3], [f0; f1; f2; f3] =>
      let r02 := [psrl 64 31 (x0 * f0); psrl 64 31 (x2 * f2)] in
      let r13 := map (psll 64 1) [x1 * f1; x3 * f3] in
      blend_aa (cut 32 r02) (cut 32 r13)
  | _, _ => []
  end.
(* simd_x86.h 2160-2181 *)
Definition shrv32u_sse2 (oob : oob_t) (x y : list Z) : list Z :=
  match x, shrv32u_factor oob y with
  | [x0; x1; x2; x3], [f0; f1; f2; f3] =>
      let r02 := cut 32 [psrl 64 31 (x0 * f0); psrl 64 31 (x2 * f2)] in
      (* _mm_slli_si128(.., 4) moves every lane up by one *)
      let r13 := 0 :: removelast (cut 32 (map (psrl 64 31) [x1 * f1; x3 * f3])) in
      map2 Z.lor r02 r13
  | _, _ => []
  end.
(* 2182-2204: SSE2, signed 32-bit lanes: four shifts by one count each; psrad
   takes the count from the low 64 bits of its second operand *)
Definition psra_all (y : list Z) (x : list Z) : list Z := map (psra 32 (nth 0 y 0 + 2 ^ 32 * nth 1 y 0)) x.
(* simd_x86.h 2182-2204 *)
Definition shrv32s_sse (sse41 : bool) (x y : list Z) : list Z :=
  match x, y with
  | [_; _; _; _], [y0; y1; y2; y3] =>
      let r0 := psra_all [y0; 0; y1; 0] x in        (* unpacklo_epi32(iy, 0) *)
      let r1 := psra_all [y1; 0; y3; 0] x in        (* srli_epi64(iy, 32) *)
      let r2 := psra_all [y2; 0; y3; 0] x in        (* unpackhi_epi32(iy, 0) *)
      let r3 := psra_all [y3; 0; 0; 0] x in         (* srli_si128(iy, 12) *)
      if sse41 then
        (* blends 0x3, 0x30, 0xf0 of 16-bit lanes *)
        let a := nth 0 r0 0 :: skipn 1 r1 in
        let b := firstn 2 r3 ++ nth 2 r2 0 :: skipn 3 r3 in
        firstn 2 a ++ skipn 2 b
      else
        (* unpacklo_epi32(r0, r1 >> 4 bytes), unpackhi_epi32(r2, r3 >> 4 bytes) *)
        let r1' := skipn 1 r1 ++ [0] in
        let r3' := skipn 1 r3 ++ [0] in
        [nth 0 r0 0; nth 0 r1' 0; nth 2 r2 0; nth 2 r3' 0]
  | _, _ => []
  end.
