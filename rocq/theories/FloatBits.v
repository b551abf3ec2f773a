(* Model of the floating-point comparison and classification functions of
   /repo/experimental/bits/simd_builtin.h 2020-2083, 2252-2440 and simd_x86.h
   2825-3460.  A lane is the bit pattern of an element; a vector mask is the
   list of its elements.  -ffinite-math-only and -ffast-math (the #if branches)
   are not modelled. *)
From Coq Require Import ZArith List Bool.
From Verif Require Import Prelude X86Lanes Fixed FloatSpec.
Import ListNotations.
Open Scope Z_scope.

(* ------------------------------------------------------------------ *)
(* constants *)
(* _V() + 1 and _V() - 1: the bit patterns of 1 and -1;
   helper for simd_builtin.h 2020-2083, 2252-2440, simd_x86.h 2825-3460 *)
Definition one_bits (f : fmt) : Z := bias f * 2 ^ mb f.
(* simd_builtin.h 2020-2083, 2252-2440, simd_x86.h 2825-3460 *)
Definition minus_one_bits (f : fmt) : Z := 2 ^ (fw f - 1) + one_bits f.
(* simd_builtin.h 38-41: _S_allbits *)
Definition allbits (f : fmt) : Z := 2 ^ fw f - 1.
(* simd_builtin.h 45-47: _S_signmask *)
Definition signmask (f : fmt) : Z := Z.lxor (one_bits f) (minus_one_bits f).
(* simd.h 1851-1883 (__andnot): ~a & b *)
Definition andnot (a b : Z) : Z := Z.land (Z.lnot a) b.
(* simd_builtin.h 49-51: _S_absmask *)
Definition absmask (f : fmt) : Z := andnot (signmask f) (allbits f).
(* bit patterns of __infinity_v, __norm_min_v, __finite_max_v (numeric_limits
   infinity(), min(), max());
   helper for simd_builtin.h 2020-2083, 2252-2440, simd_x86.h 2825-3460 *)
Definition inf_bits (f : fmt) : Z := (2 ^ eb f - 1) * 2 ^ mb f.
(* simd_builtin.h 49-51 *)
Definition norm_min_bits (f : fmt) : Z := 2 ^ mb f.
(* simd_builtin.h 49-51 *)
Definition finite_max_bits (f : fmt) : Z := (2 ^ eb f - 2) * 2 ^ mb f + (2 ^ mb f - 1).
(* __finite_max_v<_Ip> of the signed integer of the same size;
   helper for simd_builtin.h 2020-2083, 2252-2440, simd_x86.h 2825-3460 *)
Definition int_max (f : fmt) : Z := 2 ^ (fw f - 1) - 1.

(* simd_builtin.h 2089-2101: _S_abs for floating-point types *)
Definition fabs_lane (f : fmt) (x : Z) : Z := Z.land (absmask f) x.

(* ------------------------------------------------------------------ *)
(* instructions *)
(* GCC vector comparison operators and cmpps/cmppd on floating-point lanes:
   the four outcomes of IEEE comparison, and for each predicate the outcomes
   that give true (Intel SDM, CMPPD, table of comparison predicates);
   helper for simd_builtin.h 2020-2083, 2252-2440, simd_x86.h 2825-3460 *)
Definition compare_lanes (f : fmt) (x y : Z) : option comparison := ieee_compare (decode f x) (decode f y).
(* simd_builtin.h 2089-2101 *)
Inductive cmp_pred := CMP_EQ_OQ | CMP_LT_OQ | CMP_LE_OQ | CMP_UNORD_Q | CMP_NEQ_UQ | CMP_NEQ_OQ | CMP_GE_OQ | CMP_GT_OQ | CMP_ORD_Q.
(* simd_builtin.h 2089-2101 *)
Definition cmp (p : cmp_pred) (f : fmt) (x y : Z) : bool :=
  match compare_lanes f x y with
  | None => match p with CMP_UNORD_Q | CMP_NEQ_UQ => true | _ => false end
  | Some Gt => match p with CMP_GT_OQ | CMP_GE_OQ | CMP_NEQ_UQ | CMP_NEQ_OQ | CMP_ORD_Q => true | _ => false end
  | Some Lt => match p with CMP_LT_OQ | CMP_LE_OQ | CMP_NEQ_UQ | CMP_NEQ_OQ | CMP_ORD_Q => true | _ => false end
  | Some Eq => match p with CMP_EQ_OQ | CMP_LE_OQ | CMP_GE_OQ | CMP_ORD_Q => true | _ => false end
  end.
(* operators == and != of GCC vectors;
   helper for simd_builtin.h 2020-2083, 2252-2440, simd_x86.h 2825-3460 *)
Definition feq (f : fmt) (x y : Z) : bool := cmp CMP_EQ_OQ f x y.
(* simd_builtin.h 2089-2101 *)
Definition fne (f : fmt) (x y : Z) : bool := cmp CMP_NEQ_UQ f x y.
(* _mm_ucomigt_sd, _mm_ucomige_sd: false when unordered;
   helper for simd_builtin.h 2020-2083, 2252-2440, simd_x86.h 2825-3460 *)
Definition ucomigt (f : fmt) (x y : Z) : bool := cmp CMP_GT_OQ f x y.
(* simd_builtin.h 2089-2101 *)
Definition ucomige (f : fmt) (x y : Z) : bool := cmp CMP_GE_OQ f x y.
(* vfpclassps/pd: bit i of the immediate asks for class i (Intel SDM):
   QNaN, +0, -0, +inf, -inf, denormal, finite negative, SNaN;
   helper for simd_builtin.h 2020-2083, 2252-2440, simd_x86.h 2825-3460 *)
Definition fpclass (imm : Z) (f : fmt) (x : Z) : bool :=
  let b i := Z.testbit imm i in
  match decode f x with
  | DNaN => if Z.testbit x (mb f - 1) then b 0 else b 7
  | DInf s => if s then b 4 else b 3
  | DFin s m =>
      if m =? 0 then (if s then b 2 else b 1)
      else (b 5 && (m <? 2 ^ mb f)) || (b 6 && s)
  end.

(* ------------------------------------------------------------------ *)
(* the target: what the if constexpr conditions look at.  x86 is false for the
   targets that use the generic implementation (NEON, PPC).  a512 is
   __is_avx512_abi<_Abi>(): masks are bit masks.  bytes is sizeof(__xi), the
   size of the register. snan: __SUPPORT_SNAN__ is defined (-fsignaling-nans).
   Helper for simd_builtin.h 2020-2083, 2252-2440, simd_x86.h 2825-3460 *)
Record ftarget := { t_x86 : bool; t_avx : bool; t_dq : bool; t_vl : bool; t_a512 : bool; t_bytes : Z; t_snan : bool }.

(* simd_builtin.h 2252-2271: _S_isnan *)
Definition builtin_isnan (t : ftarget) (f : fmt) (x : Z) : bool :=
  if t_snan t then sgn (fw f) (inf_bits f) <? sgn (fw f) (fabs_lane f x)
  else negb (feq f x x).
(* simd_builtin.h 2293-2298: _S_isunordered *)
Definition builtin_isunordered (t : ftarget) (f : fmt) (x y : Z) : bool :=
  builtin_isnan t f x || builtin_isnan t f y.
(* simd_x86.h 3134-3170: _S_isunordered; all branches are cmpunord *)
Definition x86_isunordered (t : ftarget) (f : fmt) (x y : Z) : bool := cmp CMP_UNORD_Q f x y.
(* _SuperImpl::_S_isunordered;
   helper for simd_builtin.h 2020-2083, 2252-2440, simd_x86.h 2825-3460 *)
Definition isunordered_lane (t : ftarget) (f : fmt) (x y : Z) : bool :=
  if t_x86 t then x86_isunordered t f x y else builtin_isunordered t f x y.

(* simd_builtin.h 2027-2028 (and 2041-2042, 2055-2056, 2069-2070), simd_x86.h
   3211-3212: the integer that is compared *)
Definition key (f : fmt) (x : Z) : Z :=
  let xn := sgn (fw f) x in
  if xn <? 0 then sgn (fw f) (uns (fw f) (- Z.land xn (int_max f))) else xn.

(* simd_builtin.h 2027-2028, 2041-2042, 2055-2056, 2069-2070, simd_x86.h 3211-3212 *)
Inductive ordrel := RGreater | RGreaterEqual | RLess | RLessEqual.
(* operators >, >=, <, <= of GCC vectors of signed integers;
   helper for simd_builtin.h 2020-2083, 2252-2440, simd_x86.h 2825-3460 *)
Definition icmp (r : ordrel) (a b : Z) : bool :=
  match r with RGreater => b <? a | RGreaterEqual => b <=? a | RLess => a <? b | RLessEqual => a <=? b end.
(* simd_builtin.h 2020-2073: _S_isgreater .. _S_islessequal *)
Definition builtin_ord (t : ftarget) (r : ordrel) (f : fmt) (x y : Z) : bool :=
  negb (isunordered_lane t f x y) && icmp r (key f x) (key f y).
(* simd_builtin.h 2020-2073 *)
Definition pred_of (r : ordrel) : cmp_pred :=
  match r with RGreater => CMP_GT_OQ | RGreaterEqual => CMP_GE_OQ | RLess => CMP_LT_OQ | RLessEqual => CMP_LE_OQ end.
(* simd_x86.h 3174-3408: _S_isgreater .. _S_islessequal; None is
   __assert_unreachable (a compile-time error) *)
Definition x86_ord (t : ftarget) (r : ordrel) (f : fmt) (x y : Z) : option bool :=
  if t_a512 t then
    if (t_bytes t =? 16) || (t_bytes t =? 32) || (t_bytes t =? 64) then Some (cmp (pred_of r) f x y) else None
  else if t_avx t then
    if (t_bytes t =? 16) || (t_bytes t =? 32) then Some (cmp (pred_of r) f x y) else None
  else if (t_bytes t =? 16) && (fw f =? 32) then
    Some (cmp CMP_ORD_Q f x y && icmp r (key f x) (key f y))
  else if (t_bytes t =? 16) && (fw f =? 64) then
    Some (match r with
          | RGreater => ucomigt f x y
          | RGreaterEqual => ucomige f x y
          | RLess => ucomigt f y x
          | RLessEqual => ucomige f y x
          end)
  else Some (builtin_ord t r f x y).
(* _SuperImpl::_S_isgreater .. _S_islessequal;
   helper for simd_builtin.h 2020-2083, 2252-2440, simd_x86.h 2825-3460 *)
Definition ord_lane (t : ftarget) (r : ordrel) (f : fmt) (x y : Z) : option bool :=
  if t_x86 t then x86_ord t r f x y else Some (builtin_ord t r f x y).

(* simd_builtin.h 2076-2083: _S_islessgreater *)
Definition builtin_islessgreater (t : ftarget) (f : fmt) (x y : Z) : bool :=
  negb (isunordered_lane t f x y) && fne f x y.
(* simd_x86.h 3412-3457: _S_islessgreater *)
Definition x86_islessgreater (t : ftarget) (f : fmt) (x y : Z) : option bool :=
  if t_a512 t then
    if (t_bytes t =? 16) || (t_bytes t =? 32) || (t_bytes t =? 64) then Some (cmp CMP_NEQ_OQ f x y) else None
  else if t_avx t then
    if (t_bytes t =? 16) || (t_bytes t =? 32) then Some (cmp CMP_NEQ_OQ f x y) else None
  else if t_bytes t =? 16 then Some (cmp CMP_ORD_Q f x y && cmp CMP_NEQ_UQ f x y)
  else None.
(* simd_x86.h 3412-3457 *)
Definition islessgreater_lane (t : ftarget) (f : fmt) (x y : Z) : option bool :=
  if t_x86 t then x86_islessgreater t f x y else Some (builtin_islessgreater t f x y).

(* ------------------------------------------------------------------ *)
(* classification *)
(* simd_x86.h 3127-3131: _S_isnan; simd_builtin.h 2252-2271 *)
Definition isnan_lane (t : ftarget) (f : fmt) (x : Z) : bool :=
  if t_x86 t then x86_isunordered t f x x else builtin_isnan t f x.
(* simd_builtin.h 2274-2290: _S_isfinite *)
Definition builtin_isfinite (f : fmt) (x : Z) : bool :=
  sgn (fw f) (fabs_lane f x) <=? sgn (fw f) (finite_max_bits f).
(* simd_x86.h 2977-3016: _S_isfinite; the lanes within the implicit mask __k1
   (the real elements): __k1 ^ (__k1 & class) *)
Definition isfinite_lane (t : ftarget) (f : fmt) (x : Z) : bool :=
  if t_x86 t && t_a512 t then
    if t_dq t then xorb true (fpclass 0x99 f x)
    else sgn (fw f) (Z.land x (inf_bits f)) <? sgn (fw f) (inf_bits f)
  else builtin_isfinite f x.
(* simd_builtin.h 2313-2334: _S_isinf *)
Definition builtin_isinf (f : fmt) (x : Z) : bool := feq f (fabs_lane f x) (inf_bits f).
(* simd_x86.h 3020-3055: _S_isinf *)
Definition isinf_lane (t : ftarget) (f : fmt) (x : Z) : bool :=
  if t_x86 t then
    if t_a512 t && t_dq t then fpclass 0x18 f x
    else if t_dq t && t_vl t then fpclass 0x18 f x
    else builtin_isinf f x
  else builtin_isinf f x.
(* simd_builtin.h 2337-2352: _S_isnormal *)
Definition builtin_isnormal (f : fmt) (x : Z) : bool :=
  let absn := sgn (fw f) (fabs_lane f x) in
  (sgn (fw f) (norm_min_bits f) <=? absn) && (absn <=? sgn (fw f) (finite_max_bits f)).
(* simd_x86.h 3059-3123: _S_isnormal; the lanes within the implicit mask.
   None is __assert_unreachable *)
Definition isnormal_lane (t : ftarget) (f : fmt) (x : Z) : option bool :=
  if t_x86 t then
    if t_a512 t && t_dq t then Some (xorb true (fpclass 0xbf f x))
    else if t_dq t then
      if (t_vl t && ((t_bytes t =? 16) || (t_bytes t =? 32))) || (t_bytes t =? 64)
      then Some (negb (fpclass 0xbf f x)) else None
    else if t_a512 t then
      let absn := sgn (fw f) (fabs_lane f x) in
      Some ((sgn (fw f) (norm_min_bits f) <=? absn) && (absn <? sgn (fw f) (inf_bits f)))
    else Some (builtin_isnormal f x)
  else Some (builtin_isnormal f x).
(* simd_builtin.h 2301-2310: _S_signbit *)
Definition builtin_signbit (f : fmt) (x : Z) : bool := sgn (fw f) x <? 0.
(* simd_x86.h 2825-2871: _S_signbit; movepi32_mask and movemask_ps collect the
   sign bits *)
Definition signbit_lane (t : ftarget) (f : fmt) (x : Z) : bool :=
  if t_x86 t && t_a512 t then
    if t_dq t then msb (fw f) x
    else if t_bytes t =? 64 then sgn (fw f) x <? sgn (fw f) 0
    else msb (fw f) x
  else builtin_signbit f x.

(* bits/math.h (glibc): the FP_ macros;
   helper for simd_builtin.h 2020-2083, 2252-2440, simd_x86.h 2825-3460 *)
Definition FP_NAN := 0. Definition FP_INFINITE := 1. Definition FP_ZERO := 2.
(* simd_x86.h 2825-2871 *)
Definition FP_SUBNORMAL := 3. Definition FP_NORMAL := 4.
(* simd_builtin.h 2355-2394: _S_fpclassify, one lane of __tmp *)
Definition fpclassify_tmp (f : fmt) (x : Z) : Z :=
  let xn := sgn (fw f) (fabs_lane f x) in
  let minn := sgn (fw f) (norm_min_bits f) in
  let infn := sgn (fw f) (inf_bits f) in
  if xn <? minn then (if xn =? 0 then FP_ZERO else FP_SUBNORMAL)
  else if xn <? infn then FP_NORMAL
  else if xn =? infn then FP_INFINITE else FP_NAN.
(* packssdw: signed 32-bit lanes saturated to 16 bits;
   helper for simd_builtin.h 2020-2083, 2252-2440, simd_x86.h 2825-3460 *)
Definition sat16 (v : Z) : Z := uns 16 (Z.max (- 2 ^ 15) (Z.min (2 ^ 15 - 1) (sgn 32 v))).
(* how simd_builtin.h 2396-2437 turns the lanes of __tmp into the storage of
   fixed_size<_Np> int: the list of the registers of the _SimdTuple *)
Inductive fpc_out := FOne | FScalarTail (* 2402-2407 *) | FHalves (* 2408-2410 *)
  | FTwoScalars (* 2414-2419 *) | FPacks (* 2421-2424 *) | FCvt (* 2425-2427 *) | FSubscripts (* 2429-2433 *).
(* simd_builtin.h 2429-2433 *)
Definition fpc_store (o : fpc_out) (n : nat) (tmp : list Z) : list (list Z) :=
  let half := Nat.div2 (length tmp) in
  match o with
  | FOne => [tmp]
  | FScalarTail => [firstn half tmp; [nth (n - 1) tmp 0]]
  | FHalves => [firstn half tmp; skipn half tmp]
  | FTwoScalars => [[nth 0 tmp 0]; [nth 1 tmp 0]]
  | FPacks => [join 16 (map sat16 (cut 32 (firstn half tmp) ++ cut 32 (skipn half tmp)))]
  | FCvt => [map (fun v => v mod 2 ^ 32) tmp]
  | FSubscripts => [map (fun i => nth i tmp 0 mod 2 ^ 32) (seq 0 n)]
  end.
(* 2396-2437: which way is taken.  k is the number of registers of
   fixed_size<_Np> int; lanes is the number of lanes of __tmp; scalar_tail says
   that the second register is scalar.  None is __assert_unreachable *)
Definition fpc_way (x86 : bool) (f : fmt) (n lanes k : nat) (scalar_tail : bool) : option fpc_out :=
  if fw f =? 32 then
    if Nat.eqb k 1 then Some FOne
    else if Nat.eqb k 2 && scalar_tail then Some FScalarTail
    else if Nat.eqb k 2 then Some FHalves
    else None
  else if Nat.eqb n 2 && Nat.eqb k 2 then Some FTwoScalars
  else if x86 && Nat.eqb lanes 4 && Nat.eqb k 1 then Some FPacks
  else if x86 && Nat.eqb lanes 8 && Nat.eqb k 1 then Some FCvt
  else if Nat.eqb k 1 then Some FSubscripts
  else None.
(* simd_builtin.h 2396-2437 *)
Definition fpclassify_reg (x86 : bool) (f : fmt) (n k : nat) (scalar_tail : bool) (x : list Z) : option (list (list Z)) :=
  option_map (fun o => fpc_store o n (map (fpclassify_tmp f) x)) (fpc_way x86 f n (length x) k scalar_tail).

(* ------------------------------------------------------------------ *)
(* whole registers; n is the number of elements.  With bit masks the padding
   lanes of the results below are masked off by __k1 (fpclass, cmp and less
   with a mask operand), except in _S_signbit and _S_isinf with AVX512DQ; the
   elements of a mask are its first n lanes;
   helper for simd_builtin.h 2020-2083, 2252-2440, simd_x86.h 2825-3460 *)
Definition lanes (n : nat) (masked : bool) (g : nat -> option bool) (len : nat) : option (list bool) :=
  omapm (fun i => if masked && negb (Nat.ltb i n) then Some false else g i) (seq 0 len).
(* simd_builtin.h 2020-2073, simd_x86.h 3174-3408 *)
Definition ord_reg (t : ftarget) (r : ordrel) (f : fmt) (n : nat) (x y : list Z) : option (list bool) :=
  lanes n (t_a512 t) (fun i => ord_lane t r f (nth i x 0) (nth i y 0)) (length x).
(* simd_builtin.h 2076-2083, simd_x86.h 3412-3457 *)
Definition islessgreater_reg (t : ftarget) (f : fmt) (n : nat) (x y : list Z) : option (list bool) :=
  lanes n (t_a512 t) (fun i => islessgreater_lane t f (nth i x 0) (nth i y 0)) (length x).
(* simd_builtin.h 2293-2298, simd_x86.h 3134-3170 *)
Definition isunordered_reg (t : ftarget) (f : fmt) (n : nat) (x y : list Z) : option (list bool) :=
  lanes n (t_a512 t) (fun i => Some (isunordered_lane t f (nth i x 0) (nth i y 0))) (length x).
(* simd_builtin.h 2252-2352, simd_x86.h 2825-3131 *)
Definition isnan_reg (t : ftarget) (f : fmt) (n : nat) (x : list Z) : option (list bool) :=
  lanes n (t_a512 t) (fun i => Some (isnan_lane t f (nth i x 0))) (length x).
(* simd_builtin.h 2252-2352, simd_x86.h 2825-3131 *)
Definition isfinite_reg (t : ftarget) (f : fmt) (n : nat) (x : list Z) : option (list bool) :=
  lanes n (t_a512 t) (fun i => Some (isfinite_lane t f (nth i x 0))) (length x).
(* simd_builtin.h 2252-2352, simd_x86.h 2825-3131 *)
Definition isinf_reg (t : ftarget) (f : fmt) (n : nat) (x : list Z) : option (list bool) :=
  lanes n (t_a512 t && negb (t_dq t)) (fun i => Some (isinf_lane t f (nth i x 0))) (length x).
(* simd_builtin.h 2252-2352, simd_x86.h 2825-3131 *)
Definition isnormal_reg (t : ftarget) (f : fmt) (n : nat) (x : list Z) : option (list bool) :=
  lanes n (t_a512 t) (fun i => isnormal_lane t f (nth i x 0)) (length x).
(* simd_builtin.h 2252-2352, simd_x86.h 2825-3131 *)
Definition signbit_reg (t : ftarget) (f : fmt) (n : nat) (x : list Z) : option (list bool) :=
  lanes n (t_a512 t && negb (t_dq t) && (t_bytes t =? 64)) (fun i => Some (signbit_lane t f (nth i x 0))) (length x).
