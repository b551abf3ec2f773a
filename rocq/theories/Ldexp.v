(* ldexp with AVX-512: _SimdImplX86::_S_ldexp (simd_x86.h 2611-2650), called by
   ldexp(simd, fixed_size_simd<int>) (simd_math.h 738).  Without AVX-512 the function
   calls std::ldexp for every element (simd_builtin.h 1971), which is not modelled. *)
From Coq Require Import ZArith List Bool.
From Verif Require Import X86Lanes FloatSpec FloatRoundSpec FloatBits FloatArith.
Import ListNotations.
Local Open Scope Z_scope.

(* vscalefps, vscalefpd (used in simd_x86.h 2624-2645): x * 2^floor(y), rounded once
   (Intel SDM, VSCALEFPS, table of special cases) *)
Definition scalef (f : fmt) (md : rmode) (x y : Z) : Z :=
  match decode f x, decode f y with
  | DNaN, _ | _, DNaN => nan_bits f
  | DInf a, DInf b => if b then nan_bits f else with_sign f a (inf_bits f)
  | DInf a, DFin _ _ => with_sign f a (inf_bits f)
  | DFin a m, DInf b => if b then with_sign f a 0 else if m =? 0 then nan_bits f else with_sign f a (inf_bits f)
  | DFin a m, DFin b n =>
      let e := num b n / one f in
      fround f md a (num a m * 2 ^ Z.max e 0) (Z.max (- e) 0)
  end.

(* simd_x86.h 2618-2622: the exponents (ints) are converted to the element type of x,
   element by element (C53), in the rounding mode md; _mm*_maskz_scalef_p*: lanes
   beyond the n elements become zero *)
Definition ldexp_lane (f : fmt) (md : rmode) (x e : Z) : Z := scalef f md x (fof_int f md e).
(* simd_x86.h 2618-2622 *)
Definition ldexp_reg (f : fmt) (md : rmode) (n : nat) (xs es : list Z) : list Z :=
  map (fun p => if (fst p <? n)%nat then ldexp_lane f md (fst (snd p)) (snd (snd p)) else 0)
      (combine (seq 0 (length xs)) (combine xs es)).
