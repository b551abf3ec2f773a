(* Model of sin and cos: /repo/experimental/bits/simd_math.h 191-400, 446-545.
   Vectors with at least two elements of float or double in one register, whose
   elements are given by bit patterns; one-element vectors call std::sin and
   std::cos, fixed_size calls the functions for every register.  The functions on
   elements follow the instructions in order; the tests on whole vectors (all_of,
   any_of, none_of: C43) choose between them. *)
From Coq Require Import ZArith List Bool.
From Verif Require Import Prelude X86Lanes Fixed FloatSpec FloatRoundSpec FloatBits FloatArith FloatRound ScalarSpec Scalar Narrow Hypot.
Import ListNotations.
Open Scope Z_scope.

(* divps, divpd (simd_math.h 365; _S_divides of simd_builtin.h): IEEE 754-2008 5.4.1
   division.  g is four times the quotient (in units) rounded down.  No
   floating-point number and no middle of two of them lies strictly between g / 4
   and (g + 1) / 4 units, so that rounding (2 * g + 1) / 8 instead of an inexact
   quotient gives the same result *)
Definition fdiv (f : fmt) (md : rmode) (x y : Z) : Z :=
  match decode f x, decode f y with
  | DNaN, _ | _, DNaN => nan_bits f
  | DInf a, DInf b => nan_bits f
  | DInf a, DFin b _ => with_sign f (xorb a b) (inf_bits f)
  | DFin a _, DInf b => with_sign f (xorb a b) 0
  | DFin a m, DFin b n =>
      if n =? 0 then if m =? 0 then nan_bits f else with_sign f (xorb a b) (inf_bits f)
      else
        let p := 4 * (m * 2 ^ unit f) in
        let g := p / n in
        let v := if g * n =? p then 2 * g else 2 * g + 1 in
        fround f md (xorb a b) (num (xorb a b) v) 3
  end.

(* simd_math.h 192-400: which of the products that are followed by a sum or difference the compiler
   fuses with it (-ffp-contract=fast): by position, and for the difference of two
   products *)
Record fusing := { fuse : nat -> bool; fuse2 : contraction }.
(* the expressions a * b + d, a * b - d, d - a * b of simd_math.h 192-400 *)
Definition mul_add (c : bool) (f : fmt) (md : rmode) (a b d : Z) : Z := if c then ffma f md a b d else fadd f md (fmul f md a b) d.
(* simd_math.h 192-400 *)
Definition mul_sub (c : bool) (f : fmt) (md : rmode) (a b d : Z) : Z := if c then ffma f md a b (fneg f d) else fsub f md (fmul f md a b) d.
(* simd_math.h 192-400 *)
Definition sub_mul (c : bool) (f : fmt) (md : rmode) (d a b : Z) : Z := if c then ffma f md (fneg f a) b d else fsub f md d (fmul f md a b).
(* simd_math.h 201: a * b - d * e *)
Definition mul_sub_mul (c : contraction) (f : fmt) (md : rmode) (a b d e : Z) : Z :=
  match c with
  | Separate => fsub f md (fmul f md a b) (fmul f md d e)
  | FuseFirst => ffma f md a b (fneg f (fmul f md d e))
  | FuseSecond => ffma f md (fneg f d) e (fmul f md a b)
  end.

(* a literal of simd_math.h 192-400: m * 2^e *)
Definition lit (f : fmt) (s : bool) (m e : Z) : Z := with_sign f s (round_bits f ToNearest s (m * 2 ^ (unit f + e)) 0).
(* simd_math.h 292-304: the constants of __math_float and __math_double *)
Definition pi_over_4_f : Z := lit binary32 false 0x1921FB6 (-25).
(* simd_math.h 292-304 *)
Definition two_over_pi_f : Z := lit binary32 false 0x145F306 (-25).
(* simd_math.h 292-304 *)
Definition pi_2_hi_f : Z := lit binary32 false 0x1921fc0 (-24).
(* simd_math.h 292-304 *)
Definition pi_2_lo_f : Z := lit binary32 true 0x15777a6 (-45).
(* simd_math.h 292-304 *)
Definition pi_over_4_d : Z := lit binary64 false 0x1921fb54442d18 (-53).
(* simd_math.h 292-304 *)
Definition two_over_pi_d : Z := lit binary64 false 0x145F306DC9C883 (-53).
(* simd_math.h 292-304 *)
Definition pi_2_d : Z := lit binary64 false 0x1921fb54442d18 (-52).

(* simd_math.h 192-202: __cosSeries(simd<float>) *)
Definition cos_series32 (c : fusing) (md : rmode) (x : Z) : Z :=
  let f := binary32 in
  let x2 := fmul f md x x in
  let y := lit f false 0x1a (-20) in
  let y := mul_sub (fuse c 0) f md y x2 (lit f false 0x16c1 (-22)) in
  let y := mul_add (fuse c 1) f md y x2 (lit f false 0x1555556 (-29)) in
  fadd f md (mul_sub_mul (fuse2 c) f md y (fmul f md x2 x2) (lit f false 1 (-1)) x2) (lit f false 1 0).
(* simd_math.h 204-218: __cosSeries(simd<double>) *)
Definition cos_series64 (c : fusing) (md : rmode) (x : Z) : Z :=
  let f := binary64 in
  let x2 := fmul f md x x in
  let y := lit f false 0x1AC (-53) in
  let y := mul_sub (fuse c 0) f md y x2 (lit f false 0x19394 (-53)) in
  let y := mul_add (fuse c 1) f md y x2 (lit f false 0x11EED8C (-53)) in
  let y := mul_sub (fuse c 2) f md y x2 (lit f false 0x127E4FB74 (-54)) in
  let y := mul_add (fuse c 3) f md y x2 (lit f false 0x1A01A01A018 (-56)) in
  let y := mul_sub (fuse c 4) f md y x2 (lit f false 0x16C16C16C16C (-54)) in
  let y := mul_add (fuse c 5) f md y x2 (lit f false 0x15555555555554 (-57)) in
  mul_add (fuse c 7) f md (mul_sub (fuse c 6) f md y x2 (lit f false 1 (-1))) x2 (lit f false 1 0).
(* simd_math.h 222-232: __sinSeries(simd<float>) *)
Definition sin_series32 (c : fusing) (md : rmode) (x : Z) : Z :=
  let f := binary32 in
  let x2 := fmul f md x x in
  let y := lit f true 0x19CC (-25) in
  let y := mul_add (fuse c 0) f md y x2 (lit f false 0x11111 (-23)) in
  let y := mul_sub (fuse c 1) f md y x2 (lit f false 0x1555556 (-27)) in
  mul_add (fuse c 2) f md y (fmul f md x2 x) x.
(* simd_math.h 234-250: __sinSeries(simd<double>) *)
Definition sin_series64 (c : fusing) (md : rmode) (x : Z) : Z :=
  let f := binary64 in
  let x2 := fmul f md x x in
  let y := lit f true 0x1ACF (-53) in
  let y := mul_add (fuse c 0) f md y x2 (lit f false 0x161244 (-53)) in
  let y := mul_sub (fuse c 1) f md y x2 (lit f false 0x1AE64567 (-54)) in
  let y := mul_add (fuse c 2) f md y x2 (lit f false 0x171DE3A554 (-55)) in
  let y := mul_sub (fuse c 3) f md y x2 (lit f false 0x1A01A01A01A (-53)) in
  let y := mul_add (fuse c 4) f md y x2 (lit f false 0x1111111111111 (-55)) in
  let y := mul_sub (fuse c 5) f md y x2 (lit f false 0x15555555555555 (-55)) in
  mul_add (fuse c 6) f md y (fmul f md x2 x) x.

(* static_simd_cast<int> in simd_math.h 332, 343, 366; what C++ leaves undefined ([conv.fpint]) gives ub *)
Definition to_int (ub : Z -> Z) (f : fmt) (x : Z) : Z := match fto_int f int_t x with Some v => v | None => ub x end.
(* operator <= (simd_builtin.h _S_less_equal); helper for simd_math.h 191-400, 446-545 *)
Definition fle (f : fmt) (x y : Z) : bool := cmp CMP_LE_OQ f x y.

(* simd_math.h 306-348: __fold_input(simd<float>), the three cases *)
Inductive fold_case32 := Small32 | Medium32 | Wide32.
(* simd_math.h 306-348 *)
Definition fold_test32 (xs : list Z) : fold_case32 :=
  let f := binary32 in
  let a := map (fabs_lane f) xs in
  if forallb (fun x => flt f x pi_over_4_f) a then Small32
  else if forallb (fun x => flt f x (fmul f ToNearest (fof_int f ToNearest 6) pi_over_4_f)) a then Medium32
  else Wide32.
(* simd_math.h 306-348: the folded number and its quadrant.  nearbyint is the
   instruction; the generic version (C36) differs from it in the sign of zero only *)
Definition fold32 (c : fusing) (ub : Z -> Z) (k : fold_case32) (md : rmode) (x : Z) : Z * Z :=
  let f := binary32 in
  let a := fabs_lane f x in
  match k with
  | Small32 => (a, 0)
  | Medium32 =>
      let y := fround_to_int f md (fmul f md a two_over_pi_f) in
      let q := Z.land (to_int ub f y) 3 in
      let a := sub_mul (fuse c 8) f md a y pi_2_hi_f in
      let a := sub_mul (fuse c 9) f md a y pi_2_lo_f in
      (a, q)
  | Wide32 =>
      let d := binary64 in
      let xd := fconv f d md a in
      let y := fround_to_int d md (fmul d md xd two_over_pi_d) in
      let q := Z.land (to_int ub d y) 3 in
      (fconv d f md (sub_mul (fuse c 8) d md xd y pi_2_d), q)
  end.

(* simd_math.h 350-400: __fold_input(simd<double>), the four cases *)
Inductive fold_case64 := Small64 | Medium64 | Large64 | Huge64.
(* simd_math.h 365: __y *)
Definition fold_y (md : rmode) (a : Z) : Z :=
  fround_to_int binary64 md (fdiv binary64 md a (fmul binary64 ToNearest (fof_int binary64 ToNearest 2) pi_over_4_d)).
(* simd_math.h 365 *)
Definition fold_test64 (md : rmode) (xs : list Z) : fold_case64 :=
  let f := binary64 in
  let a := map (fabs_lane f) xs in
  if forallb (fun x => flt f x pi_over_4_d) a then Small64
  else if forallb (fun x => flt f x (fmul f ToNearest (fof_int f ToNearest 1025) pi_over_4_d)) a then Medium64
  else if forallb (fun x => fle f (fold_y md x) (fof_int f ToNearest (2 ^ 30))) a then Large64
  else Huge64.
(* simd_math.h 254-262: __zero_low_bits<26> *)
Definition zero_low_bits (x : Z) : Z := Z.land x (2 ^ 64 - 2 ^ 26).
(* simd_math.h 254-262 *)
Definition fold64 (c : fusing) (ub : Z -> Z) (k : fold_case64) (md : rmode) (x : Z) : Z * Z :=
  let f := binary64 in
  let a := fabs_lane f x in
  match k with
  | Small64 => (a, 0)
  | Medium64 =>
      let y := fold_y md a in
      let q := Z.land (to_int ub f y) 3 in
      let a := sub_mul (fuse c 8) f md a y (lit f false 0x1921FB54443 (-40)) in
      let a := sub_mul (fuse c 9) f md a y (lit f true 0x173DCB3B39A (-83)) in
      (sub_mul (fuse c 10) f md a y (lit f false 0x145C06E0E68948 (-138)), q)
  | Large64 =>
      let y := fold_y md a in
      let q := Z.land (to_int ub f y) 3 in
      let a := sub_mul (fuse c 8) f md a y (lit f false 0x1921FB4 (-24)) in
      let a := sub_mul (fuse c 9) f md a y (lit f false 0x14442D (-44)) in
      (sub_mul (fuse c 10) f md a y (lit f false 0x18469898CC517 (-96)), q)
  | Huge64 =>
      let y := fold_y md a in
      let q := Z.land (to_int ub f y) 3 in
      let y_hi := zero_low_bits y in
      let y_lo := fsub f md y y_hi in
      let p1 := lit f false 0x1921FB5 (-24) in
      let p2 := lit f false 0x1110B46 (-50) in
      let p3 := lit f false 0x11A6263 (-78) in
      let p4 := lit f false 0x18A2E03707344A (-133) in
      let sub a b d := fsub f md (fsub f md a (fmax_lane f b d)) (fmin_lane f b d) in
      let a := sub_mul (fuse c 8) f md a y_hi p1 in
      let a := sub a (fmul f md y_hi p2) (fmul f md y_lo p1) in
      let a := sub a (fmul f md y_hi p3) (fmul f md y_lo p2) in
      (sub a (fmul f md y p4) (fmul f md y_lo p3), q)
  end.

(* simd_math.h 477-497: from the folded numbers and quadrants to cos; s and c are
   the series.  The int vector is shifted with wrap-around *)
Definition cos_sign (f : fmt) (md : rmode) (q : Z) : Z :=
  Z.land (signmask f) (fof_int f md (sgn 32 (uns 32 ((1 + q) * 2 ^ 30)))).
(* simd_math.h 477-497 *)
Definition cos_select (f : fmt) (md : rmode) (sin_s cos_s : Z -> Z) (l : list (Z * Z)) : list Z :=
  let need_cos := fun p : Z * Z => Z.land (snd p) 1 =? 0 in
  if forallb need_cos l then map (fun p => Z.lxor (cos_sign f md (snd p)) (cos_s (fst p))) l
  else if negb (existsb need_cos l) then map (fun p => Z.lxor (cos_sign f md (snd p)) (sin_s (fst p))) l
  else map (fun p => Z.lxor (if need_cos p then cos_s (fst p) else sin_s (fst p)) (cos_sign f md (snd p))) l.
(* simd_math.h 523-543: sin *)
Definition sin_sign (f : fmt) (md : rmode) (x q : Z) : Z := Z.land (Z.lxor x (fof_int f md (1 - q))) (signmask f).
(* simd_math.h 523-543 *)
Definition sin_select (f : fmt) (md : rmode) (sin_s cos_s : Z -> Z) (l : list (Z * (Z * Z))) : list Z :=
  let need_sin := fun p : Z * (Z * Z) => Z.land (snd (snd p)) 1 =? 0 in
  let sign := fun p : Z * (Z * Z) => sin_sign f md (fst p) (snd (snd p)) in
  if forallb need_sin l then map (fun p => Z.lxor (sign p) (sin_s (fst (snd p)))) l
  else if negb (existsb need_sin l) then map (fun p => Z.lxor (sign p) (cos_s (fst (snd p)))) l
  else map (fun p => Z.lxor (sign p) (if need_sin p then sin_s (fst (snd p)) else cos_s (fst (snd p)))) l.

(* simd_math.h 463-499, 509-545: vectors of double *)
Definition cos_reg64 (c : fusing) (ub : Z -> Z) (md : rmode) (xs : list Z) : list Z :=
  cos_select binary64 md (sin_series64 c md) (cos_series64 c md) (map (fold64 c ub (fold_test64 md xs) md) xs).
(* simd_math.h 463-499, 509-545 *)
Definition sin_reg64 (c : fusing) (ub : Z -> Z) (md : rmode) (xs : list Z) : list Z :=
  sin_select binary64 md (sin_series64 c md) (cos_series64 c md) (combine xs (map (fold64 c ub (fold_test64 md xs) md) xs)).
(* simd_math.h 474-475, 520-521: a vector of double made from one of float
   consists of one or more registers *)
Fixpoint registers (g : list nat) (xs : list Z) : list (list Z) :=
  match g with [] => [] | n :: g => firstn n xs :: registers g (skipn n xs) end.
(* simd_math.h 474-475, 520-521 *)
Definition in_double (op : list Z -> list Z) (md : rmode) (g : list nat) (xs : list Z) : list Z :=
  map (fconv binary64 binary32 md) (concat (map op (registers g (map (fconv binary32 binary64 md) xs)))).
(* simd_math.h 463-499, 509-545: vectors of float; g are the numbers of elements in
   the registers of the vector of double *)
Definition cos_reg32 (c : fusing) (ub : Z -> Z) (md : rmode) (g : list nat) (xs : list Z) : list Z :=
  if existsb (fun x => fge binary32 (fabs_lane binary32 x) (fof_int binary32 ToNearest 393382)) xs
  then in_double (cos_reg64 c ub md) md g xs
  else cos_select binary32 md (sin_series32 c md) (cos_series32 c md) (map (fold32 c ub (fold_test32 xs) md) xs).
(* simd_math.h 463-499, 509-545 *)
Definition sin_reg32 (c : fusing) (ub : Z -> Z) (md : rmode) (g : list nat) (xs : list Z) : list Z :=
  if existsb (fun x => fge binary32 (fabs_lane binary32 x) (fof_int binary32 ToNearest 527449)) xs
  then in_double (sin_reg64 c ub md) md g xs
  else sin_select binary32 md (sin_series32 c md) (cos_series32 c md) (combine xs (map (fold32 c ub (fold_test32 xs) md) xs)).
