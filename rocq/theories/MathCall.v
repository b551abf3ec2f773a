(* The functions of <cmath> that the library applies element by element with
   the function of namespace std: which function is called, on which operands,
   for scalars, vector registers and fixed_size objects (simd_math.h 61-190 and
   the lists of calls; simd_scalar.h 298-556; simd_builtin.h 1920-2018;
   simd_fixed_size.h 1574-1703).
   Every std function is a parameter: [std g l] is its result on the operands
   [l]; one type V stands for all element types (float, double, int, long,
   bool), since no element is converted on the way.
   Not modelled: overload resolution, except that a call of a member that does
   not exist does not compile (None). *)
From Coq Require Import List Arith Bool.
From Verif Require Import Prelude Fixed.
Import ListNotations.

(* simd_math.h 443-1492, simd_fixed_size.h 1620-1677: the names *)
Inductive fn :=
  | F_acos | F_asin | F_atan | F_tan | F_cos | F_sin | F_acosh | F_asinh | F_atanh
  | F_cosh | F_sinh | F_tanh | F_exp | F_exp2 | F_expm1 | F_log | F_log10 | F_log1p
  | F_log2 | F_logb | F_cbrt | F_abs | F_fabs | F_sqrt | F_erf | F_erfc | F_lgamma
  | F_tgamma | F_ceil | F_floor | F_nearbyint | F_rint | F_round | F_trunc | F_atan2
  | F_pow | F_fmod | F_remainder | F_nextafter | F_fdim | F_fmax | F_fmin | F_fma
  | F_ldexp | F_scalbn | F_scalbln | F_ilogb | F_lrint | F_llrint | F_lround | F_llround
  | F_fpclassify | F_remquo | F_isfinite | F_isinf | F_isnan | F_isnormal | F_signbit
  | F_isgreater | F_isgreaterequal | F_isless | F_islessequal | F_islessgreater
  | F_isunordered | F_assoc_laguerre | F_assoc_legendre | F_hermite | F_laguerre
  | F_legendre | F_sph_bessel | F_sph_legendre | F_sph_neumann | F_beta | F_comp_ellint_1
  | F_comp_ellint_2 | F_comp_ellint_3 | F_cyl_bessel_i | F_cyl_bessel_j | F_cyl_bessel_k
  | F_cyl_neumann | F_ellint_1 | F_ellint_2 | F_ellint_3 | F_expint | F_riemann_zeta.

(* the public function f calls the member _S_g of the ABI's implementation, or
   calls std::g for every element, or has code of its own;
   helper for simd_math.h 61-190, simd_scalar.h 298-556, simd_builtin.h 1920-2018, simd_fixed_size.h 1574-1703 *)
Inductive public_how := Calls (g : fn) | Generates (g : fn) | OtherCode.

(* simd_math.h 61-69, 124-191: the macros of lines 443-446, 554-565, 738-745,
   856-862, 1280-1302, 1325-1350, 1367-1372 and 1422-1462 call the member of
   their own name.  1338-1348, 1352-1365: isinf, isnan, signbit (of a floating-
   point type) as well.  cos, sin and logb (451-545, 748-831) have code
   of their own.  1400-1420, 1435-1491: the functions with unsigned operands *)
Definition public (f : fn) : public_how :=
  match f with
  | F_cos => OtherCode | F_sin => OtherCode | F_logb => OtherCode
  | F_assoc_laguerre => Generates F_assoc_laguerre  (* 1400-1409 *)
  | F_assoc_legendre => Generates F_assoc_legendre  (* 1411-1420 *)
  | F_hermite => Generates F_hermite                (* 1435-1442 *)
  | F_laguerre => Generates F_laguerre              (* 1444-1451 *)
  | F_legendre => Generates F_legendre              (* 1453-1460 *)
  | F_sph_bessel => Generates F_sph_bessel          (* 1464-1471 *)
  | F_sph_legendre => Generates F_assoc_legendre    (* 1473-1482 *)
  | F_sph_neumann => Generates F_sph_neumann        (* 1484-1491 *)
  | _ => Calls f
  end.

(* simd_scalar.h 298-556: the std function _SimdImplScalar::_S_f calls, with its
   operands in the same order; None: there is no such member *)
Definition scalar_impl (f : fn) : option fn :=
  match f with
  | F_acos => Some F_acos | F_asin => Some F_asin | F_atan => Some F_atan | F_tan => Some F_tan
  | F_cos => Some F_cos | F_sin => Some F_sin | F_acosh => Some F_acosh | F_asinh => Some F_asinh
  | F_atanh => Some F_atanh | F_cosh => Some F_cosh | F_sinh => Some F_sinh
  | F_tanh => Some F_tanh | F_exp => Some F_exp | F_exp2 => Some F_exp2 | F_expm1 => Some F_expm1
  | F_log => Some F_log | F_log10 => Some F_log10 | F_log1p => Some F_log1p
  | F_log2 => Some F_log2 | F_logb => Some F_logb | F_cbrt => Some F_cbrt | F_abs => Some F_abs
  | F_fabs => Some F_fabs | F_sqrt => Some F_sqrt | F_erf => Some F_erf | F_erfc => Some F_erfc
  | F_lgamma => Some F_lgamma | F_tgamma => Some F_tgamma | F_ceil => Some F_ceil
  | F_floor => Some F_floor | F_nearbyint => Some F_nearbyint | F_rint => Some F_rint
  | F_round => Some F_round | F_trunc => Some F_trunc | F_atan2 => Some F_atan2
  | F_pow => Some F_pow | F_fmod => Some F_fmod | F_remainder => Some F_remainder
  | F_nextafter => Some F_nextafter | F_fdim => Some F_fdim | F_fmax => Some F_fmax
  | F_fmin => Some F_fmin | F_fma => Some F_fma | F_ldexp => Some F_ldexp
  | F_scalbn => Some F_scalbn | F_scalbln => Some F_scalbln | F_ilogb => Some F_ilogb
  | F_lrint => Some F_lrint | F_llrint => Some F_llrint | F_lround => Some F_lround
  | F_llround => Some F_llround | F_fpclassify => Some F_fpclassify | F_remquo => Some F_remquo
  | F_isfinite => Some F_isfinite | F_isinf => Some F_isinf | F_isnan => Some F_isnan
  | F_isnormal => Some F_isnormal | F_signbit => Some F_signbit | F_isgreater => Some F_isgreater
  | F_isgreaterequal => Some F_isgreaterequal | F_isless => Some F_isless
  | F_islessequal => Some F_islessequal | F_islessgreater => Some F_islessgreater
  | F_isunordered => Some F_isunordered
  | _ => None
  end.

(* how _SimdImplBuiltin implements _S_f: an element-wise call of g, one with an
   integer result, remquo, or other code;
   helper for simd_math.h 61-190, simd_scalar.h 298-556, simd_builtin.h 1920-2018, simd_fixed_size.h 1574-1703 *)
Inductive how := Fallback (g : fn) | FallbackFixedret (g : fn) | FallbackRemquo (g : fn) | Own.

(* simd_builtin.h 1955-2018: the macros; 2020-2085, 2087-2400: other code.  (On
   x86 and NEON sqrt and ldexp are replaced by members of a derived class,
   modelled elsewhere.) *)
Definition builtin_impl (f : fn) : option how :=
  match f with
  | F_acos => Some (Fallback F_acos) | F_asin => Some (Fallback F_asin)
  | F_atan => Some (Fallback F_atan) | F_tan => Some (Fallback F_tan)
  | F_cos => Some (Fallback F_cos) | F_sin => Some (Fallback F_sin)
  | F_acosh => Some (Fallback F_acosh) | F_asinh => Some (Fallback F_asinh)
  | F_atanh => Some (Fallback F_atanh) | F_cosh => Some (Fallback F_cosh)
  | F_sinh => Some (Fallback F_sinh) | F_tanh => Some (Fallback F_tanh)
  | F_exp => Some (Fallback F_exp) | F_exp2 => Some (Fallback F_exp2)
  | F_expm1 => Some (Fallback F_expm1) | F_log => Some (Fallback F_log)
  | F_log10 => Some (Fallback F_log10) | F_log1p => Some (Fallback F_log1p)
  | F_log2 => Some (Fallback F_log2) | F_logb => Some (Fallback F_logb)
  | F_cbrt => Some (Fallback F_cbrt) | F_abs => Some Own | F_fabs => Some (Fallback F_fabs)
  | F_sqrt => Some (Fallback F_sqrt) | F_erf => Some (Fallback F_erf)
  | F_erfc => Some (Fallback F_erfc) | F_lgamma => Some (Fallback F_lgamma)
  | F_tgamma => Some (Fallback F_tgamma) | F_ceil => Some Own | F_floor => Some Own
  | F_nearbyint => Some Own | F_rint => Some Own | F_round => Some Own | F_trunc => Some Own
  | F_atan2 => Some (Fallback F_atan2) | F_pow => Some (Fallback F_pow)
  | F_fmod => Some (Fallback F_fmod) | F_remainder => Some (Fallback F_remainder)
  | F_nextafter => Some (Fallback F_nextafter) | F_fdim => Some (Fallback F_fdim)
  | F_fmax => Some (Fallback F_fmax) | F_fmin => Some (Fallback F_fmin)
  | F_fma => Some (Fallback F_fma) | F_ldexp => Some (Fallback F_ldexp)
  | F_scalbn => Some (Fallback F_scalbn) | F_scalbln => Some (Fallback F_scalbln)
  | F_ilogb => Some (FallbackFixedret F_ilogb) | F_lrint => Some (FallbackFixedret F_lrint)
  | F_llrint => Some (FallbackFixedret F_llrint) | F_lround => Some (FallbackFixedret F_lround)
  | F_llround => Some (FallbackFixedret F_llround) | F_fpclassify => Some Own
  | F_remquo => Some (FallbackRemquo F_remquo) | F_isfinite => Some Own | F_isinf => Some Own
  | F_isnan => Some Own | F_isnormal => Some Own | F_signbit => Some Own
  | F_isgreater => Some Own | F_isgreaterequal => Some Own | F_isless => Some Own
  | F_islessequal => Some Own | F_islessgreater => Some Own | F_isunordered => Some Own
  | _ => None
  end.

(* how _SimdImplFixedSize implements _S_f: register by register with the public
   function g, with a result of another type, remquo, or a predicate;
   helper for simd_math.h 61-190, simd_scalar.h 298-556, simd_builtin.h 1920-2018, simd_fixed_size.h 1574-1703 *)
Inductive fixed_how := Apply (g : fn) | ApplyR (g : fn) | ApplyRemquo (g : fn) | Test (g : fn).

(* simd_fixed_size.h 1618-1675 (macro 1575-1617), 1678-1689 (remquo), 1704-1719
   (tests), 1741-1767 (comparisons) *)
Definition fixed_impl (f : fn) : option fixed_how :=
  match f with
  | F_acos => Some (Apply F_acos) | F_asin => Some (Apply F_asin) | F_atan => Some (Apply F_atan)
  | F_tan => Some (Apply F_tan) | F_cos => Some (Apply F_cos) | F_sin => Some (Apply F_sin)
  | F_acosh => Some (Apply F_acosh) | F_asinh => Some (Apply F_asinh)
  | F_atanh => Some (Apply F_atanh) | F_cosh => Some (Apply F_cosh)
  | F_sinh => Some (Apply F_sinh) | F_tanh => Some (Apply F_tanh) | F_exp => Some (Apply F_exp)
  | F_exp2 => Some (Apply F_exp2) | F_expm1 => Some (Apply F_expm1) | F_log => Some (Apply F_log)
  | F_log10 => Some (Apply F_log10) | F_log1p => Some (Apply F_log1p)
  | F_log2 => Some (Apply F_log2) | F_logb => Some (Apply F_logb) | F_cbrt => Some (Apply F_cbrt)
  | F_abs => Some (Apply F_abs) | F_fabs => Some (Apply F_fabs) | F_sqrt => Some (Apply F_sqrt)
  | F_erf => Some (Apply F_erf) | F_erfc => Some (Apply F_erfc)
  | F_lgamma => Some (Apply F_lgamma) | F_tgamma => Some (Apply F_tgamma)
  | F_ceil => Some (Apply F_ceil) | F_floor => Some (Apply F_floor)
  | F_nearbyint => Some (Apply F_nearbyint) | F_rint => Some (Apply F_rint)
  | F_round => Some (Apply F_round) | F_trunc => Some (Apply F_trunc)
  | F_atan2 => Some (Apply F_atan2) | F_pow => Some (Apply F_pow) | F_fmod => Some (Apply F_fmod)
  | F_remainder => Some (Apply F_remainder) | F_nextafter => Some (Apply F_nextafter)
  | F_fdim => Some (Apply F_fdim) | F_fmax => Some (Apply F_fmax) | F_fmin => Some (Apply F_fmin)
  | F_fma => Some (Apply F_fma) | F_ldexp => Some (Apply F_ldexp)
  | F_scalbn => Some (Apply F_scalbn) | F_scalbln => Some (Apply F_scalbln)
  | F_ilogb => Some (ApplyR F_ilogb) | F_lrint => Some (ApplyR F_lrint)
  | F_llrint => Some (ApplyR F_llrint) | F_lround => Some (ApplyR F_lround)
  | F_llround => Some (ApplyR F_llround) | F_fpclassify => Some (ApplyR F_fpclassify)
  | F_remquo => Some (ApplyRemquo F_remquo) | F_isfinite => Some (Test F_isfinite)
  | F_isinf => Some (Test F_isinf) | F_isnan => Some (Test F_isnan)
  | F_isnormal => Some (Test F_isnormal) | F_signbit => Some (Test F_signbit)
  | F_isgreater => Some (Test F_isgreater) | F_isgreaterequal => Some (Test F_isgreaterequal)
  | F_isless => Some (Test F_isless) | F_islessequal => Some (Test F_islessequal)
  | F_islessgreater => Some (Test F_islessgreater) | F_isunordered => Some (Test F_isunordered)
  | _ => None
  end.

Section Calls.
Context {V : Type} (zero : V).
(* the std functions; quo is what std::remquo stores through its pointer *)
Context (std : fn -> list V -> V) (quo : list V -> V).
(* the code this file does not model: of functions with the same result type,
   and with a result of another type *)
Context (own : fn -> nat -> list V -> list (list V) -> list V)
        (ownr : fn -> nat -> list V -> tuple V).

(* ---------------------------------------------------------------- scalar *)

(* simd_scalar.h 298-556 behind simd_math.h 61-69; None: does not compile.
   1400-1491: the generator constructor with one element *)
Definition scalar_call (f : fn) (args : list V) : option V :=
  match public f with
  | Calls g => option_map (fun h => std h args) (scalar_impl g)
  | Generates g => Some (std g args)
  | OtherCode => None
  end.

(* -------------------------------------------------------------- registers *)

(* simd_builtin.h 1922-1928 (_GLIBCXX_SIMD_MATH_FALLBACK) with simd.h 1672-1703
   (__generate_vector of a _SimdWrapper: _S_partial_width elements, the other
   lanes are zero); all operands have the type of the first *)
Definition fallback (g : fn) (m : nat) (x : list V) (more : list (list V)) : list V :=
  map (fun i => if i <? m then std g (nth i x zero :: map (fun r => nth i r zero) more) else zero)
      (seq 0 (length x)).

(* the same with an operand of type fixed_size_simd<int or long, m>: its member
   operator[] (simd_fixed_size.h 584-610); the index is less than m, the size
   of that object *)
Definition tup_at (y : tuple V) (i : nat) : V :=
  match t_get y i with Some v => v | None => zero end.
(* simd_fixed_size.h 584-610 *)
Definition fallback_int (g : fn) (m : nat) (x : list V) (y : tuple V) : list V :=
  map (fun i => if i <? m then std g [nth i x zero; tup_at y i] else zero) (seq 0 (length x)).

(* simd_builtin.h 1939-1953 (_GLIBCXX_SIMD_MATH_FALLBACK_FIXEDRET): s is the
   partition of __fixed_size_storage_t<_RetTp, m>; each of its registers takes
   the elements from its offset on *)
Definition fallback_fixedret (g : fn) (s : shape) (x : list V) : tuple V :=
  t_generate s 0 (fun off n l => reg_generator zero n l (fun i => std g [nth (off + i) x zero])).

(* simd_builtin.h 1998-2011: remquo stores the quotients one by one; the index
   is less than the size m of the object z points to *)
Definition z_set (z : tuple V) (i : nat) (v : V) : tuple V :=
  match t_set z i v with Some z' => z' | None => z end.
(* simd_builtin.h 1998-2011 *)
Definition fallback_remquo (g : fn) (m : nat) (x y : list V) (z : tuple V) : list V * tuple V :=
  (fallback g m x [y],
   fold_left (fun z i => z_set z i (quo [nth i x zero; nth i y zero])) (seq 0 m) z).

(* f on a register of a chunk or of an object: a register with one lane is a
   scalar (a vector has at least two lanes).  None: does not compile;
   helper for simd_math.h 61-190, simd_scalar.h 298-556, simd_builtin.h 1920-2018, simd_fixed_size.h 1574-1703 *)
Definition register_call (f : fn) : option (nat -> list V -> list (list V) -> list V) :=
  match public f with
  | Calls g =>
      match scalar_impl g, builtin_impl g with
      | Some h, Some (Fallback b) => Some (fun m x more =>
          if length x =? 1 then [std h (nth 0 x zero :: map (fun r => nth 0 r zero) more)]
          else fallback b m x more)
      | Some h, Some Own => Some (fun m x more =>
          if length x =? 1 then [std h (nth 0 x zero :: map (fun r => nth 0 r zero) more)]
          else own g m x more)
      | _, _ => None
      end
  | OtherCode => Some (own f)
  | Generates _ => None
  end.

(* the same with an int or long operand (ldexp, scalbn, scalbln); the scalar
   reads __y.first (simd_scalar.h 462-472) *)
Definition register_call_int (f : fn) : option (nat -> list V -> tuple V -> list V) :=
  match public f with
  | Calls g =>
      match scalar_impl g, builtin_impl g with
      | Some h, Some (Fallback b) => Some (fun m x y =>
          if length x =? 1 then [std h [nth 0 x zero; tup_at y 0]] else fallback_int b m x y)
      | _, _ => None
      end
  | _ => None
  end.

(* _S_f with an int or long result: one element (simd_scalar.h 382-384, 442-460,
   506-508: _ST<int>, a tuple of one scalar) or a tuple with the partition
   st m = __fixed_size_storage_t<_RetTp, m> *)
Definition register_result (st : nat -> option shape) (f : fn) : option (nat -> list V -> tuple V) :=
  match scalar_impl f, builtin_impl f with
  | Some h, Some (FallbackFixedret b) => Some (fun m x =>
      if length x =? 1 then [Chunk 1 [std h [nth 0 x zero]]]
      else match st m with Some s => fallback_fixedret b s x | None => [] end)
  | Some h, Some Own => Some (fun m x =>
      if length x =? 1 then [Chunk 1 [std h [nth 0 x zero]]] else ownr f m x)
  | _, _ => None
  end.

(* _S_remquo of a register: simd_scalar.h 502-504 writes __z->first *)
Definition register_remquo (f : fn) : option (nat -> list V -> list (list V) -> tuple V -> list V * tuple V) :=
  match scalar_impl f, builtin_impl f with
  | Some h, Some (FallbackRemquo b) => Some (fun m x more z =>
      match more with
      | [y] => if length x =? 1
               then ([std h [nth 0 x zero; nth 0 y zero]], z_set z 0 (quo [nth 0 x zero; nth 0 y zero]))
               else fallback_remquo b m x y z
      | _ => (x, z)
      end)
  | _, _ => None
  end.

(* simd_math.h 137-149: f(u, y) with u convertible to the type of y: u is
   broadcast and stays the first operand *)
Definition register_call_left (f : fn) : option (nat -> V -> list V -> list V) :=
  option_map (fun F m u y => F m (repeat u (length y)) [y]) (register_call f).

(* ------------------------------------------------------------- fixed_size *)

(* simd_fixed_size.h 1581-1588, 1595-1605: operands and result of one type *)
Definition fixed_call (f : fn) : option (tuple V -> list (tuple V) -> tuple V) :=
  match public f with
  | Generates _ => None
  | _ =>
    match fixed_impl f with
    | Some (Apply g) => option_map (fun F x more => apply_per_chunk F x more) (register_call g)
    | _ => None
    end
  end.

(* 1606-1613: an operand of another type; st is the partition of that type *)
Definition fixed_call_int (pad : V) (st : nat -> option shape) (f : fn)
  : option (tuple V -> tuple V -> option (tuple V * tuple V)) :=
  match fixed_impl f with
  | Some (Apply g) => option_map (fun F x y =>
      apply_mixed pad false st (fun m r _ arg => (F m r arg, arg)) x [] (view_of y))
      (register_call_int g)
  | _ => None
  end.

(* 1589-1593: the members' results, regrouped; st is the partition of the result *)
Definition fixed_result (st : nat -> option shape) (f : fn) : option (tuple V -> option (tuple V)) :=
  match fixed_impl f with
  | Some (ApplyR g) => option_map (fun F x =>
      let r := apply_r F x in optimize_tuple zero (length r) st r) (register_result st g)
  | _ => None
  end.

(* 1678-1689 *)
Definition fixed_remquo (pad : V) (st : nat -> option shape) (f : fn)
  : option (tuple V -> tuple V -> tuple V -> option (tuple V * tuple V)) :=
  match fixed_impl f with
  | Some (ApplyRemquo g) => option_map (fun F x y z =>
      apply_mixed pad true st F x [y] (view_of z)) (register_remquo g)
  | _ => None
  end.

(* ------------------------------------------- functions of unsigned operands *)

(* simd_math.h 1400-1491: a simd<_Tp, _Abi> generated from the elements; ns are
   the fixed_size operands (n and m, or n), a parameter's operator[] delivers
   element i.  The result as a register of m elements in l lanes *)
Definition special_register (f : fn) (m l : nat) (ns : list (tuple V)) (x : list V) : option (list V) :=
  match public f with
  | Generates g => Some (reg_generator zero m l (fun i =>
      std g (map (fun n => tup_at n i) ns ++ [nth i x zero])))
  | _ => None
  end.
(* and as a fixed_size object of n elements with the partition s;
   helper for simd_math.h 61-190, simd_scalar.h 298-556, simd_builtin.h 1920-2018, simd_fixed_size.h 1574-1703 *)
Definition special_fixed (f : fn) (n : nat) (s : shape) (ns : list (tuple V)) (x : tuple V)
  : option (tuple V) :=
  match public f with
  | Generates g => Some (fs_generator zero n s (fun i =>
      std g (map (fun y => tup_at y i) ns ++ [tup_at x i])))
  | _ => None
  end.

End Calls.
