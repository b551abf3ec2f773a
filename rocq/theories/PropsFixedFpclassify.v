(* C70: fpclassify of a simd<float or double, fixed_size<n>>: element i of the
   fixed_size simd of ints is the class of element i.  fp_macro (the FP_ macros)
   and class_of are in FloatSpec.v. *)
From Coq Require Import ZArith List Bool Lia.
From Verif Require Import Prelude BitMask Abi AbiSpec Fixed FixedSpec FloatSpec FloatBits FloatTop FloatStorage FixedTop FixedFrexpSpec FixedHypotSpec
  FixedFpclassify FixedFpclassifySpec FixedFpclassifyProofs Targets PropsAbi PropsFixed PropsFloat PropsFixedModf PropsFixedHypot.
Import ListNotations.
Local Open Scope nat_scope.

(* for all targets, except those with SSE and without SSE2.  junk is what is in
   the lanes that __to_intrin adds; with x86 there are intrinsics *)
Theorem C70_fpclassify_partial : forall std I t f x86 junk,
  arch_ok I -> elem_format t f -> std_fpclassify_ok f std -> pattern f junk -> (have_sse I = true -> have_sse2 I = true) ->
  forall n, fixed_size_type I t n -> forall x, is_fixed I t n x -> all_lanes f x ->
  exists r, fpclassify_fixed std I t f x86 junk x = Some r /\ is_fixed I (TInt 4) n r /\
    forall i a, i < n -> t_get x i = Some a -> t_get r i = Some (fp_macro (class_of f (decode f a))).
Proof. exact fpclassify_fixed_ok. Qed.
Print Assumptions C70_fpclassify_partial.

(* with SSE and without SSE2 fpclassify of four floats does not compile: the ints
   of fixed_size<4> are four scalars *)
Theorem C70_fpclassify_refuted : exists I n, fixed_size_type I TFloat n /\
  forall std x86 junk x, is_fixed I TFloat n x -> fpclassify_fixed std I TFloat binary32 x86 junk x = None.
Proof.
  exists isa_i386_sse, 4. split.
  - split; [unfold arch_ok, isa_ok, isa_i386_sse; simpl; repeat split; auto; intuition discriminate|]. split; [exact I|cbn; lia].
  - intros std x86 junk x Hx. unfold is_fixed in Hx. change (storage_shape isa_i386_sse TFloat 4) with (Some [(4, 4)]) in Hx.
    injection Hx as Hx. destruct x as [|[m reg] [|]]; try discriminate. injection Hx as E _. subst m. reflexivity.
Qed.
Print Assumptions C70_fpclassify_refuted.

(* a target, a function and objects that meet the hypotheses:
   h_ex is -6, NaN, 0, 4 in a register and 2 as a scalar *)
Definition fpclassify_ex (a : Z) : Z := fp_macro (class_of binary64 (decode binary64 a)).
Example C70_hypotheses : arch_ok isa_avx2 /\ (have_sse isa_avx2 = true -> have_sse2 isa_avx2 = true) /\ pattern binary64 0 /\
  std_fpclassify_ok binary64 fpclassify_ex /\ fixed_size_type isa_avx2 TDouble 5 /\ is_fixed isa_avx2 TDouble 5 h_ex /\ all_lanes binary64 h_ex.
Proof.
  split; [apply avx2_arch|]. split; [reflexivity|]. split; [split; [lia|reflexivity]|]. split; [intros a _; reflexivity|].
  split; [apply C69_hypotheses|]. split; [reflexivity|]. apply C69_hypotheses.
Qed.
Example C70_ex : option_map telems (fpclassify_fixed fpclassify_ex isa_avx2 TDouble binary64 true 0 h_ex)
  = Some [FP_NORMAL; FP_NAN; FP_ZERO; FP_NORMAL; FP_NORMAL].
Proof. vm_compute. reflexivity. Qed.
