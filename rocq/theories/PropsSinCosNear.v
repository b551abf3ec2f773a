(* C56: sin and cos of vectors of float and double are close to sine and cosine. *)
From Coq Require Import ZArith Reals List Bool Lia.
From Verif Require Import FloatSpec FloatRoundSpec FloatBits FloatArith SinCosNearSpec SinCos SinCosInt SinCosNearTop SinCosDirected.
Import ListNotations.
Open Scope Z_scope.

(* Rounding to nearest, for every choice of fused products (c), every outcome of
   undefined conversions to int (ub) and every way of dividing a vector of double
   into registers (g): an element that is finite and less than 2^31 in magnitude
   gives a finite number within 2^-46 (double) or 2^-21 (float) of its sine or
   cosine, whatever the other elements are. *)
Theorem C56_accurate : forall c ub,
  (forall xs, Forall (pattern binary64) xs ->
     closely binary64 sin (/ IZR (2 ^ 46)) xs (sin_reg64 c ub ToNearest xs) /\
     closely binary64 cos (/ IZR (2 ^ 46)) xs (cos_reg64 c ub ToNearest xs)) /\
  (forall g xs, list_sum g = length xs -> Forall (pattern binary32) xs ->
     closely binary32 sin (/ IZR (2 ^ 21)) xs (sin_reg32 c ub ToNearest g xs) /\
     closely binary32 cos (/ IZR (2 ^ 21)) xs (cos_reg32 c ub ToNearest g xs)).
Proof.
  exact (fun c ub => conj
    (fun xs P => conj (closely_ok _ _ _ _ _ (accurate_sin64 c ub xs P)) (closely_ok _ _ _ _ _ (accurate_cos64 c ub xs P)))
    (fun g xs G P => conj (closely_ok _ _ _ _ _ (accurate_sin32 c ub g xs G P)) (closely_ok _ _ _ _ _ (accurate_cos32 c ub g xs G P)))).
Qed.
Print Assumptions C56_accurate.

(* Within 2^-50 if all elements of the vector of double are less than 805 in
   magnitude. *)
Theorem C56_accurate_small : forall c ub xs, Forall (pattern binary64) xs ->
  Forall (fun x => less binary64 (decode binary64 x) 805) xs ->
  closely binary64 sin (/ IZR (2 ^ 50)) xs (sin_reg64 c ub ToNearest xs) /\
  closely binary64 cos (/ IZR (2 ^ 50)) xs (cos_reg64 c ub ToNearest xs).
Proof.
  exact (fun c ub xs P S => conj (closely_ok _ _ _ _ _ (accurate_sin64_small c ub xs P S)) (closely_ok _ _ _ _ _ (accurate_cos64_small c ub xs P S))).
Qed.
Print Assumptions C56_accurate_small.

(* A vector that meets the hypotheses: 1, -100; with NaN for the first theorem. *)
Example C56_accurate_nonvacuous :
  let xs := [lit binary64 false 1 0; lit binary64 true 100 0] in
  Forall (pattern binary64) xs /\ Forall (pattern binary64) (nan_bits binary64 :: xs) /\
  Forall (fun x => less binary64 (decode binary64 x) 805) xs /\
  Forall (fun x => less binary64 (decode binary64 x) (2 ^ 31)) xs /\
  Forall (pattern binary32) [lit binary32 true 5 20; nan_bits binary32] /\ list_sum [1%nat; 1%nat] = 2%nat /\
  less binary32 (decode binary32 (lit binary32 true 5 20)) (2 ^ 31).
Proof.
  cbv zeta. refine (conj _ (conj _ (conj _ (conj _ (conj _ (conj eq_refl _)))))).
  1, 2, 5: repeat (apply Forall_cons; [split; vm_compute; congruence|]); apply Forall_nil.
  1, 2: repeat (apply Forall_cons; [vm_compute; reflexivity|]); apply Forall_nil.
  vm_compute. reflexivity.
Qed.

(* In every other rounding mode the claim is false: the quotient by pi / 2 is rounded
   to an integer in the mode of the thread instead of to the nearest, and the series
   are evaluated at up to pi / 2 instead of pi / 4.  The sine of 3 / 2 (13 / 8 when
   rounding upwards) is off by more than 2^-40 in double and 2^-14 in float. *)
Theorem C56_accurate_directed_refuted : forall md ub, md <> ToNearest ->
  (exists x, pattern binary64 x /\
     ~ closely binary64 sin (/ IZR (2 ^ 40)) [x] (sin_reg64 unfused ub md [x])) /\
  (exists x, pattern binary32 x /\
     ~ closely binary32 sin (/ IZR (2 ^ 14)) [x] (sin_reg32 unfused ub md [1%nat] [x])).
Proof.
  exact (fun md ub M => conj
    (ex_intro _ (arg md binary64) (conj (proj1 (arg_pattern md)) (directed64 md ub M)))
    (ex_intro _ (arg md binary32) (conj (proj2 (arg_pattern md)) (directed32 md ub M)))).
Qed.
Print Assumptions C56_accurate_directed_refuted.
