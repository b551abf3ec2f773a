(* The functions of [parallel.simd.math] by kind, independent of how the
   library implements them.  ISO/IEC TS 19570 9.9: f(x, ...)[i] is what std::f
   delivers for the elements i of the operands. *)
From Coq Require Import List.
From Verif Require Import MathCall.
Import ListNotations.

(* functions of floating-point operands with a floating-point result that the
   library leaves to std *)
Definition plain_functions : list fn :=
  [F_acos; F_asin; F_atan; F_tan; F_acosh; F_asinh; F_atanh; F_cosh; F_sinh; F_tanh; F_exp;
   F_exp2; F_expm1; F_log; F_log10; F_log1p; F_log2; F_cbrt; F_fabs; F_sqrt; F_erf; F_erfc;
   F_lgamma; F_tgamma; F_atan2; F_pow; F_fmod; F_remainder; F_nextafter; F_fdim; F_fmax; F_fmin;
   F_fma].
(* those the library has register-level code for *)
Definition coded_functions : list fn :=
  [F_abs; F_ceil; F_floor; F_nearbyint; F_rint; F_round; F_trunc; F_cos; F_sin; F_logb].
(* with an int or long second operand *)
Definition int_operand_functions : list fn := [F_ldexp; F_scalbn; F_scalbln].
(* with an int or long result, left to std *)
Definition int_result_functions : list fn := [F_ilogb; F_lrint; F_llrint; F_lround; F_llround].
(* with a bool result *)
Definition predicates : list fn :=
  [F_isfinite; F_isinf; F_isnan; F_isnormal; F_signbit; F_isgreater; F_isgreaterequal; F_isless;
   F_islessequal; F_islessgreater; F_isunordered].
(* special functions with one or two unsigned operands in front *)
Definition unsigned_functions : list fn :=
  [F_assoc_laguerre; F_assoc_legendre; F_hermite; F_laguerre; F_legendre; F_sph_bessel;
   F_sph_legendre; F_sph_neumann].
(* special functions of floating-point operands *)
Definition special_functions : list fn :=
  [F_beta; F_comp_ellint_1; F_comp_ellint_2; F_comp_ellint_3; F_cyl_bessel_i; F_cyl_bessel_j;
   F_cyl_bessel_k; F_cyl_neumann; F_ellint_1; F_ellint_2; F_ellint_3; F_expint; F_riemann_zeta].
