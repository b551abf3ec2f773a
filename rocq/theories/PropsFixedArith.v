(* C71: + - * /, sqrt and the rounding functions of a simd<float or double,
   fixed_size<n>>: every element is correctly rounded.  The results are specified
   in ArithSpec.v, FloatRoundSpec.v and FixedArithSpec.v. *)
From Coq Require Import ZArith List Bool Lia.
From Verif Require Import Prelude X86Lanes Abi AbiSpec Fixed FixedSpec FloatSpec FloatRoundSpec FloatBits FloatArith FloatProofs FloatRound FloatRoundTop
  Hypot SinCos ArithOps ArithSpec ArithTop FixedTop FixedFrexpSpec FixedArith FixedArithSpec FixedArithProofs Targets PropsAbi PropsFixed PropsFloat.
Import ListNotations.
Local Open Scope nat_scope.

(* I is the target, md the rounding mode; bm m: registers of m elements have bit
   masks *)
Theorem C71_operators : forall bm op f md I ty n x y, elem_format ty f -> fixed_size_type I ty n ->
  is_fixed I ty n x -> is_fixed I ty n y -> all_patterns f x -> all_patterns f y ->
  is_fixed I ty n (arith_fixed bm op f md x y) /\
  forall i a b, i < n -> t_get x i = Some a -> t_get y i = Some b ->
    exists c, t_get (arith_fixed bm op f md x y) i = Some c /\ arith_result op f md (decode f a) (decode f b) (decode f c).
Proof. exact arith_fixed_ok. Qed.
Print Assumptions C71_operators.

Theorem C71_sqrt : forall std_sqrt f md I ty n x, elem_format ty f -> fixed_size_type I ty n -> std_sqrt_ok f md std_sqrt ->
  is_fixed I ty n x -> all_patterns f x ->
  is_fixed I ty n (sqrt_fixed std_sqrt f md x) /\
  forall i a, i < n -> t_get x i = Some a ->
    exists b, t_get (sqrt_fixed std_sqrt f md x) i = Some b /\ sqrt_result f md (decode f a) (decode f b).
Proof. exact sqrt_fixed_ok. Qed.
Print Assumptions C71_sqrt.

(* t are the instructions for rounding, generic m as in C36_nearbyint.  The sign of
   a zero result is that of C36. *)
Theorem C71_rounding : forall std arm generic fn t f md I ty n x, elem_format ty f -> fixed_size_type I ty n -> std_rounding_ok f md std ->
  is_fixed I ty n x -> all_patterns f x ->
  is_fixed I ty n (rounding_fixed std arm generic fn t f md x) /\
  forall i a, i < n -> t_get x i = Some a ->
    exists b, t_get (rounding_fixed std arm generic fn t f md x) i = Some b /\ integer_result (rounding_rule fn md) f (decode f a) (decode f b).
Proof. exact rounding_fixed_ok. Qed.
Print Assumptions C71_rounding.

(* functions that meet the hypotheses *)
Example C71_std_ex : std_sqrt_ok binary64 ToNearest (fsqrt binary64 ToNearest) /\
  std_rounding_ok binary64 ToNearest (fun fn => rounding_lane false (fun _ => false) fn RInstr binary64 ToNearest 1).
Proof.
  split.
  - intros a Ha. destruct (sqrt_core binary64 ToNearest [a] ok64 (Forall_cons _ Ha (Forall_nil _)) 0 a eq_refl) as (z & Ez & _ & H).
    injection Ez as <-. exact H.
  - intros fn a Ha. destruct fn; [apply c36_trunc|apply c36_floor|apply c36_ceil|apply c36_round|apply c36_nearbyint]; auto; right; reflexivity.
Qed.

(* 2.5, -inf, 0.25, -3 and -1.5, 4, 0, behind the last element a NaN: registers of
   4 and of 3 with one lane of padding *)
Definition x71 : tuple Z :=
  [Chunk 4 [0x4004000000000000; 0xfff0000000000000; 0x3fd0000000000000; 0xc008000000000000]%Z;
   Chunk 3 [0xbff8000000000000; 0x4010000000000000; 0; 0x7ff8000000000000]%Z].
Example C71_hypotheses :
  elem_format TDouble binary64 /\ fixed_size_type isa_avx2 TDouble 7 /\ is_fixed isa_avx2 TDouble 7 x71 /\ all_patterns binary64 x71.
Proof.
  split; [right; split; reflexivity|]. split; [split; [apply avx2_arch|split; [exact I|cbn; lia]]|]. split; [reflexivity|].
  intros i a. do 8 (destruct i as [|i]; [intros H; injection H as <-; split; [apply Z.leb_le; reflexivity|reflexivity]|]).
  intros H. destruct i; discriminate.
Qed.
(* x / x: 1, NaN, 1, 1 and 1, 1, NaN; floor; sqrt of 2.5, -inf, .25 .. *)
Example C71_ex :
  map creg (arith_fixed (fun _ => false) ADivides binary64 ToNearest x71 x71) =
    [[0x3ff0000000000000; nan_bits binary64; 0x3ff0000000000000; 0x3ff0000000000000]%Z;
     [0x3ff0000000000000; 0x3ff0000000000000; nan_bits binary64; nan_bits binary64]%Z] /\
  map celems (rounding_fixed (fun _ a => a) false (fun _ => false) FFloor RSse2 binary64 ToNearest x71) =
    [[0x4000000000000000; 0xfff0000000000000; 0; 0xc008000000000000]%Z; [0xc000000000000000; 0x4010000000000000; 0]%Z] /\
  nth_error (telems (sqrt_fixed (fun a => a) binary64 ToNearest x71)) 5 = Some 0x4000000000000000%Z.
Proof. repeat split; vm_compute; reflexivity. Qed.
