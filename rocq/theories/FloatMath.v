(* Model of copysign, abs, modf, frexp and logb:
   /repo/experimental/bits/simd_math.h 403-416, 570-857, 1305-1323, and of
   simd_x86.h 2909-2973 (_S_isnonzerovalue_mask).  Vectors of one element and
   the scalar ABI call std::copysign, std::modf, std::frexp and std::logb, which
   is not modelled, nor is __FINITE_MATH_ONLY__.  fixed_size calls the functions
   for every register: frexp and logb in FixedFrexp.v, modf and copysign in
   FixedModf.v. *)
From Coq Require Import ZArith List Bool.
From Verif Require Import Prelude X86Lanes Fixed FloatSpec FloatRoundSpec FloatBits FloatArith FloatRound.
Import ListNotations.
Open Scope Z_scope.

(* simd_math.h 1305-1323: copysign, one lane *)
Definition copysign_lane (f : fmt) (x y : Z) : Z :=
  let signmask := Z.lxor (one_bits f) (minus_one_bits f) in
  Z.lor (Z.land x (Z.lxor x signmask)) (Z.land y signmask).
(* simd_math.h 1305-1323 *)
Definition copysign_reg (f : fmt) (x y : list Z) : list Z := map (fun p => copysign_lane f (fst p) (snd p)) (combine x y).
(* simd_math.h 865-874 (abs, fabs), simd_builtin.h 2089-2101 *)
Definition abs_reg (f : fmt) (x : list Z) : list Z := map (fabs_lane f) x.

(* simd_math.h 833-857: modf, one lane: the returned fraction and *__iptr.
   where(isinf(x), r) = 0 is a blend *)
Definition modf_lane (t : ftarget) (rt : rtarget) (f : fmt) (md : rmode) (x : Z) : Z * Z :=
  let integral := trunc_lane rt f md x in
  let r := fsub f md x integral in
  let r := if isinf_lane t f x then zero_bits f else r in
  (copysign_lane f r x, integral).
(* simd_math.h 833-857 *)
Definition modf_reg (t : ftarget) (rt : rtarget) (f : fmt) (md : rmode) (x : list Z) : list Z * list Z :=
  (map (fun a => fst (modf_lane t rt f md a)) x, map (fun a => snd (modf_lane t rt f md a)) x).

(* ------------------------------------------------------------------ *)
(* simd_math.h 403-416: __extract_exponent_as_int *)
Definition extract_exponent (f : fmt) (v : Z) : Z := Z.shiftr (Z.land v (inf_bits f)) (fp f - 1).
(* simd_math.h 680-683: __exp_adjust, __exp_offset, the bit pattern of
   __subnorm_scale (2^__exp_offset) *)
Definition exp_adjust (f : fmt) : Z := if fw f =? 32 then 0x7e else 0x3fe.
(* simd_math.h 680-683 *)
Definition exp_offset (f : fmt) : Z := if fw f =? 32 then 0x70 else 0x200.
(* simd_math.h 680-683 *)
Definition subnorm_scale (f : fmt) : Z := (bias f + exp_offset f) * 2 ^ mb f.
(* simd_math.h 686-687: __p5_1_exponent, "0xbf7fffff or 0xbfefffffffffffff" *)
Definition p5_1_exponent (f : fmt) : Z := if fw f =? 32 then 0xbf7fffff else 0xbfefffffffffffff.
(* simd_math.h 686-687 *)
Definition mant_bits (f : fmt) (x : Z) : Z := Z.land (p5_1_exponent f) (Z.lor (inf_bits f) x).
(* a lane of a vector mask read as an int;
   helper for simd_math.h 403-416, 570-857, 1305-1323, simd_x86.h 2909-2973 *)
Definition imask (b : bool) : Z := if b then -1 else 0.
(* simd_math.h 706-731: one lane of the general path; isnormal is the lane of
   isnormal(__x).  The int subtractions cannot overflow *)
Definition frexp_slow (f : fmt) (md : rmode) (isnormal : bool) (x : Z) : Z * Z :=
  let exponent_bits := extract_exponent f x in
  let as_int := sgn (fw f) (fabs_lane f x) in
  let inf := sgn (fw f) (inf_bits f) in
  let iszero_inf_nan := (as_int =? 0) || (inf <=? as_int) in
  let scaled := fmul f md x (subnorm_scale f) in
  let mant := if negb isnormal then mant_bits f scaled else mant_bits f x in
  let mant := if iszero_inf_nan then x else mant in
  let e := if isnormal then exponent_bits else extract_exponent f scaled in
  let offset := Z.lor (Z.land (imask isnormal) (exp_adjust f))
                      (Z.land (imask ((exponent_bits =? 0) && fne f x (zero_bits f))) (exp_adjust f + exp_offset f)) in
  (mant, e - offset).
(* simd_math.h 690-697: the path for normal numbers *)
Definition frexp_fast (f : fmt) (x : Z) : Z * Z := (mant_bits f x, extract_exponent f x - exp_adjust f).
(* simd_math.h 672-732: the generic implementation on the elements of a vector *)
Definition frexp_generic (t : ftarget) (f : fmt) (md : rmode) (x : list Z) : option (list (Z * Z)) :=
  match omapm (isnormal_lane t f) x with
  | None => None
  | Some isnormal =>
      if forallb (fun b => b) isnormal then Some (map (frexp_fast f) x)
      else Some (map (fun p => frexp_slow f md (fst p) (snd p)) (combine isnormal x))
  end.

(* simd_math.h 570-595: vgetexpps/pd: floor(log2 |x|) as a floating-point
   number, -inf for zero, +inf for infinities *)
Definition getexp (f : fmt) (md : rmode) (x : Z) : Z :=
  match decode f x with
  | DNaN => nan_bits f
  | DInf _ => inf_bits f
  | DFin _ m => if m =? 0 then with_sign f true (inf_bits f) else fof_int f md (Z.log2 m - unit f)
  end.
(* simd_math.h 597-628: vgetmantps/pd with _MM_MANT_NORM_p5_1 and
   _MM_MANT_SIGN_src: the significand scaled to [0.5, 1) with the sign of x;
   Intel SDM: 1.0 for zero and infinities *)
Definition getmant (f : fmt) (x : Z) : Z :=
  match decode f x with
  | DNaN => nan_bits f
  | DInf s => with_sign f s (one_bits f)
  | DFin s m => if m =? 0 then with_sign f s (one_bits f)
                else with_sign f s (round_bits f ToZero s (m * 2 ^ (unit f - 1)) (Z.log2 m))
  end.
(* cvttps2dq, cvttpd2dq (__convert to int): 0x80000000 for what is out of
   range; helper for simd_math.h 403-416, 570-857, 1305-1323, simd_x86.h 2909-2973 *)
Definition cvt_int (f : fmt) (x : Z) : Z :=
  match decode f x with
  | DFin s m => let v := Z.quot (num s m) (2 ^ unit f) in
                if (- 2 ^ 31 <=? v) && (v <? 2 ^ 31) then v else - 2 ^ 31
  | _ => - 2 ^ 31
  end.
(* simd_x86.h 2909-2973: _S_isnonzerovalue_mask, one lane *)
Definition isnonzerovalue (t : ftarget) (f : fmt) (md : rmode) (x : Z) : bool :=
  if t_dq t && t_vl t then negb (fpclass 0x9f f x)
  else cmp CMP_ORD_Q f (fmul f md x (inf_bits f)) (fmul f md x (zero_bits f)).
(* simd_math.h 653-670: frexp with AVX512F, one lane *)
Definition frexp_avx512 (t : ftarget) (f : fmt) (md : rmode) (x : Z) : Z * Z :=
  let isnonzero := isnonzerovalue t f md x in
  let exp_plus1 := sgn 32 (uns 32 (1 + cvt_int f (getexp f md x))) in
  (if isnonzero then getmant f x else x, if isnonzero then exp_plus1 else 0).
(* simd_math.h 639-732: frexp *)
Definition frexp_reg (have_avx512f : bool) (t : ftarget) (f : fmt) (md : rmode) (x : list Z) : option (list (Z * Z)) :=
  if have_avx512f then Some (map (frexp_avx512 t f md) x) else frexp_generic t f md x.

(* ------------------------------------------------------------------ *)
(* simd_math.h 799-805: __exponent; >> of the signed integer, minus
   __max_exponent_v - 1 *)
Definition logb_exponent (f : fmt) (v : Z) : Z := Z.shiftr (sgn (fw f) v) (fp f - 1) - (2 ^ (eb f - 1) - 1).
(* simd_math.h 806-825 on the elements of a vector; static_simd_cast to the
   floating-point type is fof_int *)
Definition logb_lane (t : ftarget) (f : fmt) (md : rmode) (x : Z) : Z :=
  let r := fof_int f md (logb_exponent f (fabs_lane f x)) in
  let r := if feq f x (zero_bits f) then with_sign f true (inf_bits f) else r in
  let r := if isnan_lane t f x then x else r in
  if isinf_lane t f x then inf_bits f else r.
(* simd_math.h 806-825 *)
Definition logb_scaled (t : ftarget) (f : fmt) (md : rmode) (x : Z) : Z :=
  let scaled := fmul f md (fabs_lane f x) ((bias f + 112) * 2 ^ mb f) in
  fof_int f md (logb_exponent f scaled - 112).
(* simd_math.h 806-825 *)
Definition logb_generic (t : ftarget) (f : fmt) (md : rmode) (x : list Z) : option (list Z) :=
  match omapm (isnormal_lane t f) x with
  | None => None
  | Some isnormal =>
      if forallb (fun b => b) isnormal then Some (map (fun a => fof_int f md (logb_exponent f (fabs_lane f a))) x)
      else
        let r := map (logb_lane t f md) x in
        let is_normal := map (fun p => fst p || (feq f (snd p) (zero_bits f) || isnan_lane t f (snd p) || isinf_lane t f (snd p)))
                             (combine isnormal x) in
        if forallb (fun b => b) is_normal then Some r
        else Some (map (fun p : bool * (Z * Z) => if fst p then snd (snd p) else logb_scaled t f md (fst (snd p))) (combine is_normal (combine x r)))
  end.
(* simd_math.h 749-828: logb; getexp_instr says that one of the branches
   766-785 is taken *)
Definition logb_reg (getexp_instr : bool) (t : ftarget) (f : fmt) (md : rmode) (x : list Z) : option (list Z) :=
  if getexp_instr then Some (map (getexp f md) x) else logb_generic t f md x.
