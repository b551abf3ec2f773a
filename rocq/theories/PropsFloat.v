(* C32, C33: comparison and classification of floating-point elements. *)
From Coq Require Import ZArith List Bool Lia.
From Verif Require Import Prelude Abi AbiSpec Fixed ConvertCheck PropsAbi X86Lanes FloatSpec FloatBits FloatProofs FloatTop FloatStorage.
Import ListNotations.
Open Scope Z_scope.

(* the formats of float and double are instances of every theorem below *)
Example C32_formats : fmt_ok binary32 /\ fmt_ok binary64.
Proof. exact (conj ok32 ok64). Qed.

(* isgreater, isgreaterequal, isless, islessequal *)
Theorem C32_ordered : forall f, fmt_ok f -> forall t r n x y, target_ok t -> fregister f n x -> fregister f n y ->
  exists k, ord_reg t r f n x y = Some k /\ length k = length x /\
    forall i, (i < n)%nat ->
      nth i k false =
        match r with
        | RGreater => greater (decode f (nth i x 0)) (decode f (nth i y 0))
        | RGreaterEqual => greater_equal (decode f (nth i x 0)) (decode f (nth i y 0))
        | RLess => less (decode f (nth i x 0)) (decode f (nth i y 0))
        | RLessEqual => less_equal (decode f (nth i x 0)) (decode f (nth i y 0))
        end.
Proof. exact c32_ord. Qed.
Print Assumptions C32_ordered.

Theorem C32_islessgreater : forall f, fmt_ok f -> forall t n x y, target_ok t -> fregister f n x -> fregister f n y ->
  exists k, islessgreater_reg t f n x y = Some k /\ length k = length x /\
    forall i, (i < n)%nat -> nth i k false = less_greater (decode f (nth i x 0)) (decode f (nth i y 0)).
Proof. exact c32_islessgreater. Qed.
Print Assumptions C32_islessgreater.

Theorem C32_isunordered : forall f, fmt_ok f -> forall t n x y, fregister f n x -> fregister f n y ->
  exists k, isunordered_reg t f n x y = Some k /\ length k = length x /\
    forall i, (i < n)%nat -> nth i k false = unordered (decode f (nth i x 0)) (decode f (nth i y 0)).
Proof. exact c32_isunordered. Qed.
Print Assumptions C32_isunordered.

(* SSE2 without AVX; -0.0 < 0.0 is false, -2^-149 < -0.0 is true, NaN compares
   false, -inf < largest negative *)
Definition sse2_target := {| t_x86 := true; t_avx := false; t_dq := false; t_vl := false; t_a512 := false; t_bytes := 16; t_snan := false |}.
Definition neon_target := {| t_x86 := false; t_avx := false; t_dq := false; t_vl := false; t_a512 := false; t_bytes := 16; t_snan := true |}.
Definition knl_target := {| t_x86 := true; t_avx := true; t_dq := false; t_vl := false; t_a512 := true; t_bytes := 64; t_snan := false |}.
Definition skx_target := {| t_x86 := true; t_avx := true; t_dq := true; t_vl := true; t_a512 := true; t_bytes := 16; t_snan := false |}.
Example C32_nonvacuous :
  let x := [0x80000000; 0x80000001; 0x7fc00000; 0xff800000] in
  let y := [0x00000000; 0x80000000; 0x3f800000; 0xff7fffff] in
  target_ok sse2_target /\ target_ok neon_target /\ target_ok knl_target /\ target_ok skx_target /\
  fregister binary32 4 x /\ fregister binary32 4 y /\
  ord_reg sse2_target RLess binary32 4 x y = Some [false; true; false; true] /\
  ord_reg neon_target RLess binary32 4 x y = Some [false; true; false; true] /\
  ord_reg neon_target RGreaterEqual binary32 4 x y = Some [true; false; false; false] /\
  ord_reg skx_target RLess binary32 3 x y = Some [false; true; false; false] /\
  islessgreater_reg neon_target binary32 4 x y = Some [false; true; false; true] /\
  isunordered_reg neon_target binary32 4 x y = Some [false; false; true; false].
Proof.
  assert (P : forall a, In a [0x80000000; 0x80000001; 0x7fc00000; 0xff800000; 0x00000000; 0x80000000; 0x3f800000; 0xff7fffff] -> pattern binary32 a).
  { intros a Ha. unfold pattern, binary32; simpl in *. lia. }
  cbn zeta. unfold target_ok, fregister, sse2_target, neon_target, knl_target, skx_target.
  repeat split; try (simpl; intuition (congruence || lia)); try reflexivity; try (cbn; lia).
  - repeat constructor; cbn; lia.
  - repeat constructor; cbn; lia.
Qed.

Theorem C33_isnan : forall f, fmt_ok f -> forall t n x, fregister f n x ->
  exists k, isnan_reg t f n x = Some k /\ length k = length x /\
    forall i, (i < n)%nat -> nth i k false = is_nan f (decode f (nth i x 0)).
Proof. exact c33_isnan. Qed.
Print Assumptions C33_isnan.

Theorem C33_isinf : forall f, fmt_ok f -> forall t n x, fregister f n x ->
  exists k, isinf_reg t f n x = Some k /\ length k = length x /\
    forall i, (i < n)%nat -> nth i k false = is_inf f (decode f (nth i x 0)).
Proof. exact c33_isinf. Qed.
Print Assumptions C33_isinf.

Theorem C33_isfinite : forall f, fmt_ok f -> forall t n x, fregister f n x ->
  exists k, isfinite_reg t f n x = Some k /\ length k = length x /\
    forall i, (i < n)%nat -> nth i k false = is_finite f (decode f (nth i x 0)).
Proof. exact c33_isfinite. Qed.
Print Assumptions C33_isfinite.

(* isnormal, unless the target has AVX512DQ without AVX512VL and the mask is a
   vector mask *)
Theorem C33_isnormal : forall f, fmt_ok f -> forall t n x, target_ok t -> dq_ok t -> fregister f n x ->
  exists k, isnormal_reg t f n x = Some k /\ length k = length x /\
    forall i, (i < n)%nat -> nth i k false = is_normal f (decode f (nth i x 0)).
Proof. exact c33_isnormal. Qed.
Print Assumptions C33_isnormal.

(* with AVX512DQ and without AVX512VL isnormal of a 16-byte vector does not
   compile *)
Theorem C33_isnormal_dq_refuted : forall f n x, x <> [] ->
  exists t, target_ok t /\ isnormal_reg t f n x = None.
Proof.
  intros f n x Hx.
  exists {| t_x86 := true; t_avx := true; t_dq := true; t_vl := false; t_a512 := false; t_bytes := 16; t_snan := false |}.
  split.
  - unfold target_ok; simpl; intuition congruence.
  - destruct x; [congruence|]. reflexivity.
Qed.
Print Assumptions C33_isnormal_dq_refuted.

Theorem C33_signbit : forall f, fmt_ok f -> forall t n x, fregister f n x ->
  exists k, signbit_reg t f n x = Some k /\ length k = length x /\
    forall i, (i < n)%nat -> nth i k false = sign_of f (nth i x 0).
Proof. exact c33_signbit. Qed.
Print Assumptions C33_signbit.

(* fpclassify: the registers of the result hold the FP_ macros of the elements
   in order *)
Theorem C33_fpclassify : forall f, fmt_ok f -> forall x86 n k tail x, fregister f n x ->
  int_storage_ok f n (length x) k tail ->
  exists ys, fpclassify_reg x86 f n k tail x = Some ys /\
    forall i, (i < n)%nat -> nth i (concat ys) 0 = fp_macro (class_of f (decode f (nth i x 0))).
Proof. exact c33_fpclassify. Qed.
Print Assumptions C33_fpclassify.

(* the hypothesis about the storage holds for every type of float or double
   elements on every target that has SSE2 whenever it has SSE *)
Theorem C33_fpclassify_storage : forall I t a s, arch_ok I -> (have_sse I = true -> have_sse2 I = true) ->
  t = TFloat \/ t = TDouble -> vector_tag a -> abi_valid I t a = true ->
  storage_shape I (TInt 4) (abi_size t a) = Some s ->
  int_storage_ok (elem_fmt t) (abi_size t a) (intrin_lanes I t a) (length s) (second_scalar s).
Proof. exact c33_storage. Qed.
Print Assumptions C33_fpclassify_storage.
(* with SSE but not SSE2 the ints of fixed_size<4> are four scalars, and
   fpclassify of four floats does not compile *)
Definition isa_i386_sse : isa := {|
  have_sse := true; have_sse2 := false; have_avx := false; have_avx2 := false;
  have_avx512f := false; have_avx512vl := false; have_avx512bw := false;
  have_power8vec := false; have_power_vsx := false; have_power_vmx := false;
  have_neon := false; have_neon_a32 := false; have_neon_a64 := false;
  support_neon_float := false; def_x86_64 := false; def_i386 := true; def_aarch64 := false |}.
Theorem C33_fpclassify_sse_refuted : exists I s, arch_ok I /\ abi_valid I TFloat (AVecBuiltin 16) = true /\
  storage_shape I (TInt 4) 4 = Some s /\
  forall x, length x = 4%nat -> fpclassify_reg true binary32 4 (length s) (second_scalar s) x = None.
Proof.
  exists isa_i386_sse, [(1, 1); (1, 1); (1, 1); (1, 1)]%nat.
  split; [unfold arch_ok, isa_ok, isa_i386_sse; simpl; repeat split; auto; intuition discriminate|].
  split; [reflexivity|]. split; [reflexivity|]. reflexivity.
Qed.
Print Assumptions C33_fpclassify_sse_refuted.

(* zero, smallest and largest subnormal, smallest normal, largest finite,
   infinity, signaling and quiet NaN, all but one with the sign bit *)
Example C33_nonvacuous :
  let x := [0x80000000; 0x80000001; 0x807fffff; 0x80800000; 0xff7fffff; 0xff800000; 0x7f800001; 0xffc00000] in
  fregister binary32 8 x /\ int_storage_ok binary32 8 8 1 false /\ dq_ok neon_target /\
  isnan_reg neon_target binary32 8 x = Some [false; false; false; false; false; false; true; true] /\
  isnormal_reg neon_target binary32 8 x = Some [false; false; false; true; true; false; false; false] /\
  isfinite_reg knl_target binary32 8 x = Some [true; true; true; true; true; false; false; false] /\
  isinf_reg skx_target binary32 8 x = Some [false; false; false; false; false; true; false; false] /\
  signbit_reg neon_target binary32 8 x = Some [true; true; true; true; true; true; false; true] /\
  fpclassify_reg true binary32 8 1 false x = Some [[2; 3; 3; 4; 4; 1; 0; 0]].
Proof.
  cbn zeta. split; [split; [repeat constructor; cbn; lia|cbn; lia]|].
  split; [unfold int_storage_ok; simpl; lia|].
  split; [unfold dq_ok, neon_target; simpl; discriminate|].
  repeat split; reflexivity.
Qed.
Example C33_double_nonvacuous :
  let x := [0x8000000000000001; 0x7ff0000000000000; 0x3ff0000000000000; 0] in
  fregister binary64 4 x /\ int_storage_ok binary64 4 4 1 false /\
  fpclassify_reg true binary64 4 1 false x = Some [[3; 1; 4; 2]].
Proof.
  cbn zeta. split; [split; [repeat constructor; cbn; lia|cbn; lia]|].
  split; [unfold int_storage_ok; simpl; lia|reflexivity].
Qed.
