(* C56: sin and cos of vectors of float and double. *)
From Coq Require Import ZArith List Bool Lia.
From Verif Require Import FloatSpec FloatRoundSpec FloatBits FloatArith Hypot Narrow SinCosSpec SinCos SinCosProofs SinCosTop SinCosZero SinCosInt.
Import ListNotations.
Open Scope Z_scope.

(* For every choice of fused products (c), every outcome of undefined conversions
   to int (ub), every rounding mode (md) and every way of dividing a vector of
   double into registers (g): an element that is NaN or infinite gives NaN. *)
Theorem C56_special : forall c ub md,
  (forall xs, Forall (pattern binary64) xs ->
     Forall2 (fun x r => no_number (decode binary64 x) -> decode binary64 r = DNaN) xs (sin_reg64 c ub md xs) /\
     Forall2 (fun x r => no_number (decode binary64 x) -> decode binary64 r = DNaN) xs (cos_reg64 c ub md xs)) /\
  (forall g xs, list_sum g = length xs -> Forall (pattern binary32) xs ->
     Forall2 (fun x r => no_number (decode binary32 x) -> decode binary32 r = DNaN) xs (sin_reg32 c ub md g xs) /\
     Forall2 (fun x r => no_number (decode binary32 x) -> decode binary32 r = DNaN) xs (cos_reg32 c ub md g xs)).
Proof.
  exact (fun c ub md => conj (fun xs P => conj (special_sin64 c ub md xs P) (special_cos64 c ub md xs))
    (fun g xs G P => conj (special_sin32 c ub md g xs G P) (special_cos32 c ub md g xs G P))).
Qed.
Print Assumptions C56_special.

(* cos(-x) and cos(x) are the same bit pattern. *)
Theorem C56_even : forall c ub md,
  (forall xs, Forall (pattern binary64) xs -> cos_reg64 c ub md (map (fneg binary64) xs) = cos_reg64 c ub md xs) /\
  (forall g xs, Forall (pattern binary32) xs -> cos_reg32 c ub md g (map (fneg binary32) xs) = cos_reg32 c ub md g xs).
Proof. exact (fun c ub md => conj (even_cos64 c ub md) (even_cos32 c ub md)). Qed.
Print Assumptions C56_even.

(* sin(-x) is the opposite of sin(x). *)
Theorem C56_odd : forall c ub md,
  (forall xs, Forall (pattern binary64) xs ->
     map (decode binary64) (sin_reg64 c ub md (map (fneg binary64) xs)) = map opposite (map (decode binary64) (sin_reg64 c ub md xs))) /\
  (forall g xs, Forall (pattern binary32) xs -> symmetric md ->
     map (decode binary32) (sin_reg32 c ub md g (map (fneg binary32) xs)) = map opposite (map (decode binary32) (sin_reg32 c ub md g xs))).
Proof. exact (fun c ub md => conj (odd_sin64 c ub md) (odd_sin32 c ub md)). Qed.
Print Assumptions C56_odd.

(* cos(+-0) = 1 and sin(+-0) = +-0; the latter not when rounding downward. *)
Theorem C56_zero_partial : forall c ub md,
  (forall xs, Forall (pattern binary64) xs ->
     (md <> Downward -> Forall2 (fun x r => forall s, decode binary64 x = DFin s 0 -> decode binary64 r = DFin s 0) xs (sin_reg64 c ub md xs)) /\
     Forall2 (fun x r => forall s, decode binary64 x = DFin s 0 -> decode binary64 r = DFin false (one binary64)) xs (cos_reg64 c ub md xs)) /\
  (forall g xs, list_sum g = length xs -> Forall (pattern binary32) xs ->
     (md <> Downward -> Forall2 (fun x r => forall s, decode binary32 x = DFin s 0 -> decode binary32 r = DFin s 0) xs (sin_reg32 c ub md g xs)) /\
     Forall2 (fun x r => forall s, decode binary32 x = DFin s 0 -> decode binary32 r = DFin false (one binary32)) xs (cos_reg32 c ub md g xs)).
Proof.
  exact (fun c ub md => conj (fun xs P => conj (zero_sin64 c ub md xs P) (zero_cos64 c ub md xs P))
    (fun g xs G P => conj (zero_sin32 c ub md g xs G P) (zero_cos32 c ub md g xs G P))).
Qed.
Print Assumptions C56_zero_partial.
Theorem C56_zero_downward_refuted : forall c ub,
  map (decode binary64) (sin_reg64 c ub Downward [0; 0]) = [DFin true 0; DFin true 0] /\
  map (decode binary64) [0; 0] = [DFin false 0; DFin false 0].
Proof. exact zero_downward. Qed.
Print Assumptions C56_zero_downward_refuted.

(* Elements below 2^31 in magnitude: no undefined conversion has an influence on
   the result. *)
Theorem C56_defined : forall c ub ub' md i,
  (forall xs, (i < length xs)%nat -> within_int binary64 (decode binary64 (nth i xs 0)) ->
     nth i (sin_reg64 c ub md xs) 0 = nth i (sin_reg64 c ub' md xs) 0 /\
     nth i (cos_reg64 c ub md xs) 0 = nth i (cos_reg64 c ub' md xs) 0) /\
  (forall g xs, list_sum g = length xs -> Forall (pattern binary32) xs -> (i < length xs)%nat ->
     within_int binary32 (decode binary32 (nth i xs 0)) ->
     nth i (sin_reg32 c ub md g xs) 0 = nth i (sin_reg32 c ub' md g xs) 0 /\
     nth i (cos_reg32 c ub md g xs) 0 = nth i (cos_reg32 c ub' md g xs) 0).
Proof.
  exact (fun c ub ub' md i => conj
    (fun xs I W => conj (defined_sin64 c ub ub' md xs i I W) (defined_cos64 c ub ub' md xs i I W))
    (fun g xs G P I W => conj (defined_sin32 c ub ub' md g xs i G P I W) (defined_cos32 c ub ub' md g xs i G P I W))).
Qed.
Print Assumptions C56_defined.

(* Every finite element from 2^32 on: the result is one number or its opposite,
   depending on what an undefined conversion gives. *)
Theorem C56_large : forall c md xs i, Forall (pattern binary64) xs -> (i < length xs)%nat ->
  beyond_int binary64 (decode binary64 (nth i xs 0)) ->
  exists ub ub', 
    decode binary64 (nth i (sin_reg64 c ub' md xs) 0) = opposite (decode binary64 (nth i (sin_reg64 c ub md xs) 0)) /\
    decode binary64 (nth i (cos_reg64 c ub' md xs) 0) = opposite (decode binary64 (nth i (cos_reg64 c ub md xs) 0)).
Proof.
  exact (fun c md xs i P I W => ex_intro _ (fun _ => 0) (ex_intro _ (fun _ => 2)
    (conj (large_sin64 c md xs i P I W) (large_cos64 c md xs i I W)))).
Qed.
Print Assumptions C56_large.
Theorem C56_large_refuted :
  ~ (forall c ub ub' md xs, Forall (pattern binary64) xs -> Forall (fun x => exists s m, decode binary64 x = DFin s m) xs ->
     cos_reg64 c ub md xs = cos_reg64 c ub' md xs).
Proof. exact large_refuted. Qed.
Print Assumptions C56_large_refuted.

(* The result for an element depends on the other elements. *)
Theorem C56_independent_refuted :
  ~ (forall c ub md g xs ys i, list_sum g = length xs -> length ys = length xs -> Forall (pattern binary32) xs -> Forall (pattern binary32) ys ->
     (i < length xs)%nat -> nth i xs 0 = nth i ys 0 -> within_int binary32 (decode binary32 (nth i xs 0)) ->
     decode binary32 (nth i (cos_reg32 c ub md g xs) 0) = decode binary32 (nth i (cos_reg32 c ub md g ys) 0)).
Proof. exact independent_refuted. Qed.
Print Assumptions C56_independent_refuted.

(* Vectors that meet the hypotheses: NaN, infinity, -0, 1; 2^40. *)
Example C56_nonvacuous :
  let xs := [nan_bits binary64; inf_bits binary64; with_sign binary64 true 0; lit binary64 false 1 0] in
  let ys := [nan_bits binary32; inf_bits binary32; with_sign binary32 true 0; lit binary32 false 1 0] in
  Forall (pattern binary64) xs /\ Forall (pattern binary32) ys /\ list_sum [2%nat; 2%nat] = length ys /\
  no_number (decode binary64 (nth 0 xs 0)) /\ no_number (decode binary64 (nth 1 xs 0)) /\
  decode binary64 (nth 2 xs 0) = DFin true 0 /\ within_int binary64 (decode binary64 (nth 3 xs 0)) /\
  within_int binary32 (decode binary32 (nth 3 ys 0)) /\ beyond_int binary64 (decode binary64 (lit binary64 false 1 40)) /\
  symmetric ToNearest.
Proof.
  cbv zeta. refine (conj _ (conj _ (conj eq_refl (conj _ (conj _ (conj _ (conj _ (conj _ (conj _ (or_introl eq_refl)))))))))).
  - repeat (apply Forall_cons; [split; vm_compute; congruence|]). apply Forall_nil.
  - repeat (apply Forall_cons; [split; vm_compute; congruence|]). apply Forall_nil.
  - vm_compute. exact I.
  - vm_compute. exact I.
  - vm_compute. reflexivity.
  - vm_compute. reflexivity.
  - vm_compute. reflexivity.
  - vm_compute. discriminate.
Qed.
