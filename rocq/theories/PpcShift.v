(* Model of the PowerPC shift operators: /repo/experimental/bits/simd_ppc.h
   48-112 on top of simd_builtin.h 1706-1732.  A shift instruction with a count
   not less than the lane width gives any value (oob): on PPC it shifts by the
   count modulo the width. *)
From Coq Require Import ZArith List Bool.
From Verif Require Import Prelude X86Lanes.
Import ListNotations.
Open Scope Z_scope.

(* simd_builtin.h 1706-1732: __x._M_data << __y._M_data etc., lane-wise; sh is
   vshl, vshr (unsigned) or vsar (signed) *)
Definition base_shift (sh : oob_t -> Z -> Z -> Z -> Z) (oob : oob_t) (w : Z) (x y : list Z) : list Z :=
  map2 (sh oob w) y x.
(* simd_builtin.h 1706-1732 *)
Definition base_shift_n (sh : oob_t -> Z -> Z -> Z -> Z) (oob : oob_t) (w : Z) (x : list Z) (n : Z) : list Z :=
  map (sh oob w n) x.
(* (__y._M_data < nbits) & r: the comparison gives all ones or zero;
   helper for simd_ppc.h 48-112, simd_builtin.h 1706-1732 *)
Definition mask_lt (w : Z) (y r : list Z) : list Z :=
  map2 (fun c v => Z.land (if c <? w then 2 ^ w - 1 else 0) v) y r.
(* simd_ppc.h 48-58 *)
Definition ppc_shlv (oob : oob_t) (w : Z) (x y : list Z) : list Z :=
  let r := base_shift vshl oob w x y in
  if w <? 32 then mask_lt w y r else r.
(* simd_ppc.h 60-71 *)
Definition ppc_shl (oob : oob_t) (w : Z) (x : list Z) (n : Z) : list Z :=
  let r := base_shift_n vshl oob w x n in
  if w <? 32 then (if w <=? n then map (fun _ => 0) x else r) else r.
(* simd_ppc.h 75-95; simd_builtin.h 2455-2496 _S_masked_assign *)
Definition ppc_shrv (signed : bool) (oob : oob_t) (w : Z) (x y : list Z) : list Z :=
  if w <? 32 then
    if signed then
      let y := map (fun c => if w <=? c then w - 1 else c) y in
      base_shift vsar oob w x y
    else mask_lt w y (base_shift vshr oob w x y)
  else base_shift (if signed then vsar else vshr) oob w x y.
(* simd_ppc.h 97-112 *)
Definition ppc_shr (signed : bool) (oob : oob_t) (w : Z) (x : list Z) (n : Z) : list Z :=
  let sh := if signed then vsar else vshr in
  if (w <? 32) && (w <=? n) then
    if signed then base_shift_n vsar oob w x (w - 1) else map (fun _ => 0) x
  else base_shift_n sh oob w x n.
