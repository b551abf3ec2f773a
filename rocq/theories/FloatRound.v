(* Model of _S_trunc, _S_floor, _S_ceil, _S_round, _S_nearbyint and _S_rint:
   /repo/experimental/bits/simd_builtin.h 2119-2250, simd_x86.h 2651-2820,
   simd_neon.h 161-262.  One lane; md is the rounding mode in force. *)
From Coq Require Import ZArith List Bool.
From Verif Require Import Prelude X86Lanes FloatSpec FloatRoundSpec FloatBits FloatArith.
Open Scope Z_scope.

(* _V(), _Tp(1), _Tp(.5), _Tp(1ull << (__digits_v<_Tp> - 1));
   helper for simd_builtin.h 2119-2250, simd_x86.h 2651-2820, simd_neon.h 161-262 *)
Definition zero_bits (f : fmt) : Z := 0.
(* simd_builtin.h 2119-2250, simd_x86.h 2651-2820, simd_neon.h 161-262 *)
Definition half_bits (f : fmt) : Z := (bias f - 1) * 2 ^ mb f.
(* simd_builtin.h 2119-2250, simd_x86.h 2651-2820, simd_neon.h 161-262 *)
Definition shifter_bits (f : fmt) : Z := (bias f + (fp f - 1)) * 2 ^ mb f.
(* operators < > >= of vectors;
   helper for simd_builtin.h 2119-2250, simd_x86.h 2651-2820, simd_neon.h 161-262 *)
Definition flt (f : fmt) (x y : Z) : bool := cmp CMP_LT_OQ f x y.
(* simd_builtin.h 2119-2250, simd_x86.h 2651-2820, simd_neon.h 161-262 *)
Definition fgt (f : fmt) (x y : Z) : bool := cmp CMP_GT_OQ f x y.
(* simd_builtin.h 2119-2250, simd_x86.h 2651-2820, simd_neon.h 161-262 *)
Definition fge (f : fmt) (x y : Z) : bool := cmp CMP_GE_OQ f x y.

(* simd_builtin.h 2119-2171: _S_plus_minus *)
Definition plus_minus (f : fmt) (md : rmode) (x y : Z) : Z := fsub f md (fadd f md x y) y.
(* simd_builtin.h 2174-2188: _S_nearbyint; 2191-2196: _S_rint *)
Definition builtin_nearbyint (f : fmt) (md : rmode) (x : Z) : Z :=
  let absx := Z.land x (absmask f) in
  let shifter := Z.lor (Z.land (signmask f) x) (shifter_bits f) in
  let shifted := plus_minus f md x shifter in
  if flt f absx (shifter_bits f) then shifted else x.
(* simd_builtin.h 2199-2210: _S_trunc *)
Definition builtin_trunc (f : fmt) (md : rmode) (x : Z) : Z :=
  let absx := Z.land x (absmask f) in
  let t0 := plus_minus f md absx (shifter_bits f) in
  let t1 := fsub f md t0 (if fgt f t0 absx then one_bits f else zero_bits f) in
  if flt f absx (shifter_bits f) then Z.lor (Z.lxor absx x) t1 else x.
(* simd_builtin.h 2214-2222: _S_round; tr is _SuperImpl::_S_trunc *)
Definition builtin_round (tr : Z -> Z) (f : fmt) (md : rmode) (x : Z) : Z :=
  let abs_x := fabs_lane f x in
  let t_abs := tr abs_x in
  let r_abs := fadd f md t_abs (if fge f (fsub f md abs_x t_abs) (half_bits f) then one_bits f else zero_bits f) in
  Z.lor (Z.lxor abs_x x) r_abs.
(* __vector_bitcast<_Tp>(comparison): all bits or none;
   helper for simd_builtin.h 2119-2250, simd_x86.h 2651-2820, simd_neon.h 161-262 *)
Definition as_mask (f : fmt) (b : bool) : Z := if b then allbits f else 0.
(* simd_builtin.h 2225-2236: _S_floor *)
Definition builtin_floor (tr : Z -> Z) (f : fmt) (md : rmode) (x : Z) : Z :=
  let y := tr x in
  let negative_input := as_mask f (flt f x (zero_bits f)) in
  let mask := andnot (as_mask f (feq f y x)) negative_input in
  Z.lor (andnot mask y) (Z.land mask (fsub f md y (one_bits f))).
(* simd_builtin.h 2239-2250: _S_ceil *)
Definition builtin_ceil (tr : Z -> Z) (f : fmt) (md : rmode) (x : Z) : Z :=
  let y := tr x in
  let negative_input := as_mask f (flt f x (zero_bits f)) in
  let inv_mask := Z.lor (as_mask f (feq f y x)) negative_input in
  Z.lor (Z.land inv_mask y) (andnot inv_mask (fadd f md y (one_bits f))).

(* the target: x86 with SSE4.1 or AVX registers (roundps, vrndscale; also NEON
   with ARMv8 vrnd) / x86 with SSE2 only / NEON before ARMv8 / other;
   helper for simd_builtin.h 2119-2250, simd_x86.h 2651-2820, simd_neon.h 161-262 *)
Inductive rtarget := RInstr | RSse2 | RNeon32 | ROther.
(* cvttps2dq with cvtdq2ps: X86Lanes.cvttps, and back exactly or rounded;
   helper for simd_builtin.h 2119-2250, simd_x86.h 2651-2820, simd_neon.h 161-262 *)
Definition sse_cvt (f : fmt) (md : rmode) (x : Z) : Z := fof_int f md (sgn 32 (cvttps x)).
(* vcvtq_s32_f32: truncation, saturating, 0 for NaN; vcvtq_f32_s32;
   helper for simd_builtin.h 2119-2250, simd_x86.h 2651-2820, simd_neon.h 161-262 *)
Definition neon_cvt (f : fmt) (md : rmode) (x : Z) : Z :=
  fof_int f md (match decode f x with
                | DNaN => 0
                | DInf s => if s then - 2 ^ 31 else 2 ^ 31 - 1
                | DFin s m => let v := Z.quot (num s m) (2 ^ unit f) in Z.max (- 2 ^ 31) (Z.min (2 ^ 31 - 1) v)
                end).
(* simd_x86.h 2651-2682, simd_neon.h 161-195: _SuperImpl::_S_trunc *)
Definition trunc_lane (t : rtarget) (f : fmt) (md : rmode) (x : Z) : Z :=
  match t with
  | RInstr => fround_to_int f ToZero x
  | RSse2 =>
      if fw f =? 32 then
        if sgn 32 (Z.land x 0x7f800000) <? 0x4b000000 then sse_cvt f md x else x
      else builtin_trunc f md x
  | RNeon32 =>
      if fw f =? 32 then
        if flt f (fabs_lane f x) (shifter_bits f) then neon_cvt f md x else x
      else builtin_trunc f md x
  | ROther => builtin_trunc f md x
  end.
(* simd_x86.h 2685-2733: _S_round after the computation of __truncated *)
Definition x86_rounded (f : fmt) (md : rmode) (truncated x : Z) : Z :=
  fadd f md truncated
    (if fge f (Z.land (absmask f) (fsub f md x truncated)) (half_bits f)
     then Z.lor (Z.land (signmask f) x) (one_bits f) else zero_bits f).
(* simd_x86.h 2685-2733, simd_neon.h 198-219: _SuperImpl::_S_round.  On ARMv8
   it is the instruction vrnda; arm says so *)
Definition round_lane (arm : bool) (t : rtarget) (f : fmt) (md : rmode) (x : Z) : Z :=
  match t with
  | RInstr =>
      if arm then
        match decode f x with
        | DNaN => nan_bits f
        | DInf s => with_sign f s (inf_bits f)
        | DFin s m =>
            with_sign f s (round_bits f ToZero s ((2 * m + 2 ^ unit f) / 2 ^ (unit f + 1) * 2 ^ unit f) 0)
        end
      else x86_rounded f md (fround_to_int f ToZero x) x
  | RSse2 =>
      if fw f =? 32 then
        if flt f (Z.land (absmask f) x) (shifter_bits f) then x86_rounded f md (sse_cvt f md x) x else x
      else builtin_round (trunc_lane t f md) f md x
  | _ => builtin_round (trunc_lane t f md) f md x
  end.
(* simd_x86.h 2778-2798, simd_neon.h 222-240: _SuperImpl::_S_floor *)
Definition floor_lane (t : rtarget) (f : fmt) (md : rmode) (x : Z) : Z :=
  match t with
  | RInstr => fround_to_int f Downward x
  | _ => builtin_floor (trunc_lane t f md) f md x
  end.
(* simd_x86.h 2801-2821, simd_neon.h 243-261: _SuperImpl::_S_ceil *)
Definition ceil_lane (t : rtarget) (f : fmt) (md : rmode) (x : Z) : Z :=
  match t with
  | RInstr => fround_to_int f Upward x
  | _ => builtin_ceil (trunc_lane t f md) f md x
  end.
(* simd_x86.h 2736-2775: _SuperImpl::_S_nearbyint and _S_rint: the instruction
   for full registers; generic is true for 8-byte registers and for NEON, which
   use the generic implementation *)
Definition nearbyint_lane (generic : bool) (t : rtarget) (f : fmt) (md : rmode) (x : Z) : Z :=
  match t with
  | RInstr => if generic then builtin_nearbyint f md x else fround_to_int f md x
  | _ => builtin_nearbyint f md x
  end.
