(* Model of hypot(x, y) and hypot(x, y, z):
   /repo/experimental/bits/simd_math.h 965-1278.  Vectors with at least two
   elements of float or double in one register, __STDC_IEC_559__ defined, not
   __FAST_MATH__, not 32-bit ARM (996-1012, 1159-1180).  One-element vectors call
   std::hypot and fixed_size calls the functions for every register; long double
   (1130-1152) is not modelled.  The three-argument version is also used for
   vectors of one element. *)
From Coq Require Import ZArith List Bool.
From Verif Require Import Prelude X86Lanes Fixed FloatSpec FloatRoundSpec FloatBits FloatArith FloatRound.
Import ListNotations.
Open Scope Z_scope.

(* sqrtps, sqrtpd and vsqrt* (simd_x86.h 2589-2609, simd_builtin.h 1985,
   simd_neon.h 138-158): IEEE
   754-2008 5.4.1 squareRoot.  The root of m units is sqrt (m * 2^unit) units; g
   is twice that number rounded down.  No floating-point number and no middle of
   two of them lies strictly between g / 2 and (g + 1) / 2, so that rounding
   (2 * g + 1) / 4 instead gives the same result *)
Definition fsqrt (f : fmt) (md : rmode) (x : Z) : Z :=
  match decode f x with
  | DNaN => nan_bits f
  | DInf s => if s then nan_bits f else inf_bits f
  | DFin s m =>
      if m =? 0 then with_sign f s 0
      else if s then nan_bits f
      else
        let n := 4 * (m * 2 ^ unit f) in
        let g := Z.sqrt n in
        if g * g =? n then round_bits f md false g 1 else round_bits f md false (2 * g + 1) 2
  end.
(* 5.4.1 fusedMultiplyAdd: x * y + z, which GCC may use for a product followed by
   a sum (-ffp-contract=fast is the default);
   helper for simd_math.h 965-1278, 996-1012, 1159-1180, 1130-1152 *)
Definition ffma (f : fmt) (md : rmode) (x y z : Z) : Z :=
  match decode f x, decode f y, decode f z with
  | DFin a m, DFin b n, DFin c k =>
      let zs := if Bool.eqb (xorb a b) c then c else match md with Downward => true | _ => false end in
      fround f md zs (num a m * num b n + num c k * 2 ^ unit f) (unit f)
  | DFin _ _, DFin _ _, _ => fadd f md z (zero_bits f)
  | _, _, _ => fadd f md (fmul f md x y) z
  end.
(* which product of a * a + b * b is part of a fused operation;
   helper for simd_math.h 965-1278, 996-1012, 1159-1180, 1130-1152 *)
Inductive contraction := Separate | FuseFirst | FuseSecond.
(* simd_x86.h 2589-2609, simd_builtin.h 1985, simd_neon.h 138-158 *)
Definition sum_squares (c : contraction) (f : fmt) (md : rmode) (a b : Z) : Z :=
  match c with
  | Separate => fadd f md (fmul f md a a) (fmul f md b b)
  | FuseFirst => ffma f md a a (fmul f md b b)
  | FuseSecond => ffma f md b b (fmul f md a a)
  end.

(* simd_builtin.h 1764-1776: _S_min, _S_max, one lane *)
Definition fmin_lane (f : fmt) (a b : Z) : Z := if flt f a b then a else b.
(* simd_builtin.h 1764-1776 *)
Definition fmax_lane (f : fmt) (a b : Z) : Z := if fgt f a b then a else b.

(* simd_math.h 1040-1041, 1209-1210: __norm_min_v - __denorm_min_v, a constant *)
Definition mant_mask (f : fmt) : Z := fsub f ToNearest (norm_min_bits f) 1.
(* simd_math.h 1051, 1224: 1 / __norm_min_v, which is 2^(bias - 1) *)
Definition inv_norm_min (f : fmt) : Z := (2 * bias f - 1) * 2 ^ mb f.

(* simd_math.h 987-993, 1024-1045: the path for normal numbers, one lane *)
Definition hypot_fast (c : contraction) (f : fmt) (md : rmode) (x y : Z) : Z :=
  let absx := fabs_lane f x in
  let absy := fabs_lane f y in
  let hi := fmax_lane f absx absy in
  let lo := fmin_lane f absy absx in
  let hi_exp := Z.land hi (inf_bits f) in
  let scale := fmul f md (Z.lxor hi_exp (inf_bits f)) (half_bits f) in
  let h1 := Z.lor (Z.land hi (mant_mask f)) (one_bits f) in
  let l1 := fmul f md lo scale in
  fmul f md hi_exp (fsqrt f md (sum_squares c f md h1 l1)).
(* simd_math.h 987-993, 1046-1088: the general path, one lane *)
Definition hypot_slow (c : contraction) (t : ftarget) (f : fmt) (md : rmode) (x y : Z) : Z :=
  let absx := fabs_lane f x in
  let absy := fabs_lane f y in
  let hi := fmax_lane f absx absy in
  let lo := fmin_lane f absy absx in
  let normal := fge f hi (norm_min_bits f) in
  let scale := if normal then fmul f md (Z.lxor (Z.land hi (inf_bits f)) (inf_bits f)) (half_bits f) else inv_norm_min f in
  let hi_exp := if normal then Z.land hi (inf_bits f) else norm_min_bits f in
  let h1 := fmul f md hi scale in
  let l1 := fmul f md lo scale in
  let r := fmul f md hi_exp (fsqrt f md (sum_squares c f md h1 l1)) in
  let unord := isunordered_lane t f x y in
  let inf := isinf_lane t f absx || isinf_lane t f absy in
  let fixup := hi in
  let fixup := if unord then nan_bits f else fixup in
  let fixup := if inf then inf_bits f else fixup in
  if negb (feq f lo (zero_bits f) || unord || inf) then r else fixup.
(* simd_math.h 965-1090: __hypot on the elements of two vectors *)
Definition hypot_reg (c : contraction) (t : ftarget) (f : fmt) (md : rmode) (x y : list Z) : option (list Z) :=
  match omapm (isnormal_lane t f) x, omapm (isnormal_lane t f) y with
  | Some nx, Some ny =>
      if forallb (fun b => b) nx && forallb (fun b => b) ny
      then Some (map (fun p => hypot_fast c f md (fst p) (snd p)) (combine x y))
      else Some (map (fun p => hypot_slow c t f md (fst p) (snd p)) (combine x y))
  | _, _ => None
  end.

(* fused: h1 * h1 is part of a fused operation in lo + h1 * h1;
   helper for simd_math.h 965-1278, 996-1012, 1159-1180, 1130-1152 *)
Definition add_square (fused : bool) (f : fmt) (md : rmode) (lo h1 : Z) : Z :=
  if fused then ffma f md h1 h1 lo else fadd f md lo (fmul f md h1 h1).
(* simd_math.h 1124-1129, 1193-1218: three arguments, normal numbers, one lane *)
Definition hypot3_fast (c : contraction) (fused : bool) (f : fmt) (md : rmode) (x y z : Z) : Z :=
  let absx := fabs_lane f x in
  let absy := fabs_lane f y in
  let absz := fabs_lane f z in
  let hi := fmax_lane f (fmax_lane f absx absy) absz in
  let l0 := fmin_lane f absz (fmax_lane f absx absy) in
  let l1 := fmin_lane f absy absx in
  let hi_exp := Z.land hi (inf_bits f) in
  let scale := fmul f md (Z.lxor hi_exp (inf_bits f)) (half_bits f) in
  let h1 := Z.lor (Z.land hi (mant_mask f)) (one_bits f) in
  let l0 := fmul f md l0 scale in
  let l1 := fmul f md l1 scale in
  let lo := sum_squares c f md l0 l1 in
  fmul f md hi_exp (fsqrt f md (add_square fused f md lo h1)).
(* simd_math.h 1124-1129, 1219-1262: three arguments, the general path, one lane *)
Definition hypot3_slow (c : contraction) (fused : bool) (t : ftarget) (f : fmt) (md : rmode) (x y z : Z) : Z :=
  let absx := fabs_lane f x in
  let absy := fabs_lane f y in
  let absz := fabs_lane f z in
  let hi := fmax_lane f (fmax_lane f absx absy) absz in
  let l0 := fmin_lane f absz (fmax_lane f absx absy) in
  let l1 := fmin_lane f absy absx in
  let normal := fge f hi (norm_min_bits f) in
  let scale := if normal then fmul f md (Z.lxor (Z.land hi (inf_bits f)) (inf_bits f)) (half_bits f) else inv_norm_min f in
  let hi_exp := if normal then Z.land hi (inf_bits f) else norm_min_bits f in
  let h1 := fmul f md hi scale in
  let l0 := fmul f md l0 scale in
  let l1 := fmul f md l1 scale in
  let lo := sum_squares c f md l0 l1 in
  let r := fmul f md hi_exp (fsqrt f md (add_square fused f md lo h1)) in
  let unord := isunordered_lane t f x (fadd f md y z) in
  let inf := isinf_lane t f absx || isinf_lane t f absy || isinf_lane t f absz in
  let fixup := hi in
  let fixup := if unord then nan_bits f else fixup in
  let fixup := if inf then inf_bits f else fixup in
  if negb (feq f lo (zero_bits f) || unord || inf) then r else fixup.
(* simd_math.h 1103-1266: __hypot on the elements of three vectors *)
Definition hypot3_reg (c : contraction) (fused : bool) (t : ftarget) (f : fmt) (md : rmode) (x y z : list Z) : option (list Z) :=
  match omapm (isnormal_lane t f) x, omapm (isnormal_lane t f) y, omapm (isnormal_lane t f) z with
  | Some nx, Some ny, Some nz =>
      if forallb (fun b => b) nx && forallb (fun b => b) ny && forallb (fun b => b) nz
      then Some (map (fun p => hypot3_fast c fused f md (fst p) (fst (snd p)) (snd (snd p))) (combine x (combine y z)))
      else Some (map (fun p => hypot3_slow c fused t f md (fst p) (fst (snd p)) (snd (snd p))) (combine x (combine y z)))
  | _, _, _ => None
  end.
