(* C59: the arithmetic operators and sqrt of floating-point simd are correctly rounded. *)
From Coq Require Import ZArith List Bool Lia Reals Lra.
From Verif Require Import Prelude X86Lanes FloatSpec FloatRoundSpec FloatBits FloatArith FloatProofs FloatRoundTop Narrow Hypot SinCos LdexpSpec ArithOps ArithSpec ArithProofs ArithTop.
Import ListNotations.
Local Open Scope Z_scope.

(* x + y, x - y, x * y *)
Theorem C59_operators : forall f md xs ys, real_fmt f -> Forall (pattern f) xs -> Forall (pattern f) ys ->
  forall i x y, nth_error xs i = Some x -> nth_error ys i = Some y -> exists a b c,
    nth_error (plus_reg f md xs ys) i = Some a /\ nth_error (minus_reg f md xs ys) i = Some b /\ nth_error (multiplies_reg f md xs ys) i = Some c /\
    pattern f a /\ pattern f b /\ pattern f c /\
    sum_result f md (decode f x) (decode f y) (decode f a) /\ sum_result f md (decode f x) (neg (decode f y)) (decode f b) /\
    product_result f md (decode f x) (decode f y) (decode f c).
Proof. exact operators_core. Qed.
Print Assumptions C59_operators.

(* x / y: the lanes beyond the n elements are divided by one, so that they cannot raise
   the exception for a division by zero *)
Theorem C59_divides : forall b f md n xs ys, fmt_ok f -> Forall (pattern f) xs -> Forall (pattern f) ys -> (n <= length ys)%nat ->
  forall i x y, nth_error xs i = Some x -> nth_error ys i = Some y -> exists z d,
    nth_error (divides_reg b f md n xs ys) i = Some z /\ pattern f z /\ nth_error (divisor_reg b f n ys) i = Some d /\
    ((i < n)%nat -> d = y /\ quotient_result f md (decode f x) (decode f y) (decode f z)) /\
    ((n <= i)%nat -> decode f z = decode f x /\ ~ divides_by_zero (decode f x) (decode f d)).
Proof. exact divides_core. Qed.
Print Assumptions C59_divides.

(* sqrt(x): against the square root of the real number *)
Theorem C59_sqrt : forall f md xs, fmt_ok f -> Forall (pattern f) xs ->
  forall i x, nth_error xs i = Some x -> exists z, nth_error (sqrt_reg f md xs) i = Some z /\ pattern f z /\ sqrt_result f md (decode f x) (decode f z).
Proof. exact sqrt_core. Qed.
Print Assumptions C59_sqrt.

(* a * b + c contracted to one operation, as in the models of hypot, sin and cos *)
Theorem C59_fused : forall f, fmt_ok f -> forall md x y z a m b n c k, decode f x = DFin a m -> decode f y = DFin b n -> decode f z = DFin c k ->
  fused_result f md a m b n c k (decode f (ffma f md x y z)).
Proof. exact ffma_ok. Qed.
Print Assumptions C59_fused.

(* conversions: from integers, and between formats (m units of f are m * one g / one f
   units of g) *)
Theorem C59_from_int : forall f, fmt_ok f -> forall md v,
  (v = 0 -> decode f (fof_int f md v) = DFin false 0) /\ (v <> 0 -> rounds_to f md (v * one f) 1 (decode f (fof_int f md v))).
Proof. exact fof_int_ok. Qed.
Print Assumptions C59_from_int.
Theorem C59_convert : forall f g md x s m, fmt_ok f -> fmt_ok g -> pattern f x -> decode f x = DFin s m ->
  correctly_rounded g md s (m * one g) (one f) (decode g (fconv f g md x)).
Proof. exact fconv_ok. Qed.
Print Assumptions C59_convert.

Definition fone := 1065353216.
Definition three := 1077936128.
Example ex_arith : real_fmt binary32 /\ Forall (pattern binary32) [fone; three] /\
  plus_reg binary32 ToNearest [fone; three] [three; 1] = [1082130432 (* 4 *); three] /\
  plus_reg binary32 Upward [fone; three] [three; 1] = [1082130432; three + 1] /\
  minus_reg binary32 Downward [fone; three] [fone; fone] = [2 ^ 31 (* -0 *); 1073741824] /\
  multiplies_reg binary32 ToNearest [three; 1] [three; 1] = [1091567616 (* 9 *); 0].
Proof. split; [left; reflexivity|]. split; [repeat constructor; vm_compute; congruence|]. repeat split; vm_compute; reflexivity. Qed.
Example ex_divides : fmt_ok binary32 /\
  divisor_reg false binary32 2 [three; three; 0; 2143289344 (* NaN *)] = [three; three; fone; fone] /\
  divides_reg true binary32 ToNearest 2 [fone; 0; fone; fone] [three; 0; 0; 0] = [1051372203 (* 1/3 *); nan_bits binary32; fone; fone] /\
  divides_reg false binary32 ToZero 2 [fone; 0; fone; fone] [three; 0; 0; 0] = [1051372202; nan_bits binary32; fone; fone].
Proof. split; [exact (real_ok binary32 (or_introl eq_refl))|]. repeat split; vm_compute; reflexivity. Qed.
Example ex_sqrt : Forall (pattern binary32) [three; 1091567616; 2 ^ 31; 2 ^ 31 + three; 1] /\
  sqrt_reg binary32 ToNearest [three; 1091567616; 2 ^ 31; 2 ^ 31 + three; 1] = [1071494103; three; 2 ^ 31; nan_bits binary32; 439682291] /\
  sqrt_reg binary32 Upward [three; 1091567616; 2 ^ 31; 2 ^ 31 + three; 1] = [1071494104; three; 2 ^ 31; nan_bits binary32; 439682292].
Proof. split; [repeat constructor; vm_compute; congruence|]. split; vm_compute; reflexivity. Qed.
Example ex_fused : decode binary32 three = DFin false (3 * one binary32) /\ ffma binary32 ToNearest three three 1 = 1091567616 /\ ffma binary32 Upward three three 1 = 1091567617.
Proof. repeat split; vm_compute; reflexivity. Qed.
Example ex_convert : fof_int binary32 ToNearest (2 ^ 24 + 1) = 1266679808 /\ fof_int binary32 Upward (2 ^ 24 + 1) = 1266679809 /\
  pattern binary64 4599676419421066581 /\ fconv binary64 binary32 ToNearest 4599676419421066581 = 1051372203 /\ fconv binary64 binary32 ToZero 4599676419421066581 = 1051372202.
Proof. split; [vm_compute; reflexivity|]. split; [vm_compute; reflexivity|]. split; [vm_compute; split; congruence|]. split; vm_compute; reflexivity. Qed.
