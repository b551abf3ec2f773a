(* Model of the x86 multiplication of 8-bit elements:
   /repo/experimental/bits/simd_x86.h 1304-1379. *)
From Coq Require Import ZArith List Bool.
From Verif Require Import Prelude X86Lanes.
Import ListNotations.
Open Scope Z_scope.

(* int multiplication whose result does not fit is undefined: imul is any
   function; theorems say which values it may give; helper for simd_x86.h 1304-1379 *)
Definition imul_t := Z -> Z -> Z.
(* the register as one short, int; helper for simd_x86.h 1304-1379 *)
Definition as_short (x : list Z) : Z := sgn 16 (nth 0 (join 8 x) 0).
(* simd_x86.h 1304-1379 *)
Definition as_int (x : list Z) : Z := sgn 32 (nth 0 (as32 x) 0).
(* 1313-1319: sizeof 2.  0xff00 is an int; >> rounds towards minus infinity *)
Definition mul8_2 (imul : imul_t) (x y : list Z) : list Z :=
  let xs := as_short x in
  let ys := as_short y in
  let r := Z.lor (Z.land (imul xs ys) 255) (imul (xs / 2 ^ 8) (Z.land ys 65280)) in
  cut 8 [uns 16 r].
(* 1320-1329: sizeof 4 with 3 elements *)
Definition mul8_3 (imul : imul_t) (x y : list Z) : list Z :=
  let xi := as_int x in
  let yi := as_int y in
  let r := Z.lor (Z.lor (Z.land (imul xi yi) 255)
                        (Z.land (imul (xi / 2 ^ 8) (Z.land yi 65280)) 65280))
                 (imul (xi / 2 ^ 16) (Z.land yi 16711680)) in
  as8 [uns 32 r].
(* 1330-1339: sizeof 4; the last product is unsigned because of the suffix of
   0xff000000u *)
Definition mul8_4 (imul : imul_t) (x y : list Z) : list Z :=
  let xi := as_int x in
  let yi := as_int y in
  let r := Z.lor (Z.lor (Z.lor (Z.land (imul xi yi) 255)
                        (Z.land (imul (xi / 2 ^ 8) (Z.land yi 65280)) 65280))
                        (Z.land (imul (xi / 2 ^ 16) (Z.land yi 16711680)) 16711680))
                 (uns 32 (xi / 2 ^ 24) * Z.land (uns 32 yi) 4278190080) in
  as8 [uns 32 r].
(* 1340-1349: 8 elements with AVX2: widen to short, pmullw, truncate *)
Definition mul8_8 (signed : bool) (x y : list Z) : list Z :=
  let wide l := if signed then sext 8 16 l else zext l in
  trunc_to 8 (map2 (pmul 16) (wide x) (wide y)).
(* 1353-1364: __even and __odd; short lanes, pmullw *)
Definition mul8_even (x y : list Z) : list Z := map2 (pmul 16) (join 8 x) (join 8 y).
(* simd_x86.h 1353-1364 *)
Definition high_byte (m : nat) : list Z := repeat (uns 16 (0 - 256)) m.
(* simd_x86.h 1353-1364 *)
Definition mul8_odd (oob : oob_t) (x y : list Z) : list Z :=
  map2 (pmul 16) (map (vsar oob 16 8) (join 8 x))
       (map2 Z.land (join 8 y) (high_byte (length (join 8 y)))).
(* 1365-1368: AVX-512BW; the mask 0xaaaa... selects __odd *)
Definition mul8_avx512 (oob : oob_t) (x y : list Z) : list Z :=
  blend_aa (cut 8 (mul8_even x y)) (cut 8 (mul8_odd oob x y)).
(* 1369-1373: SSE4.1, pblendvb on __high_byte *)
Definition mul8_sse41 (oob : oob_t) (x y : list Z) : list Z :=
  blendv 8 (cut 8 (high_byte (length (join 8 x)))) (cut 8 (mul8_even x y)) (cut 8 (mul8_odd oob x y)).
(* 1374-1376: SSE2; andnot(a, b) = ~a & b *)
Definition mul8_sse2 (oob : oob_t) (x y : list Z) : list Z :=
  cut 8 (map2 Z.lor
    (map2 (fun k v => Z.land (2 ^ 16 - 1 - k) v) (high_byte (length (join 8 x))) (mul8_even x y))
    (mul8_odd oob x y)).
