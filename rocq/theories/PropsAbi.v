(* Properties of ABI tag selection.  Vocabulary: AbiSpec.v. *)
From Coq Require Import List Arith Bool Lia.
From Verif Require Import Prelude Abi AbiSpec AbiProofs.
Import ListNotations.

(* C01: for every element type, target and N >= 1 the storage of fixed_size<N>
   exists, consists of usable machine registers (or scalars) holding at least
   one element each, and holds exactly N elements. *)
Theorem C01_fixed_size_storage : forall I t n, elem_ok t -> 1 <= n ->
  exists regs, fixed_size_storage I t n = Some regs /\
    (exists ks, Forall2 (fun a k => is_register a /\ usable I t a k /\ 1 <= k) regs ks /\
       list_sum ks = n /\ ks = map (abi_size t) regs).
Proof. exact c01_lemma. Qed.
Print Assumptions C01_fixed_size_storage.

Definition isa_avx2 : isa := {|
  have_sse := true; have_sse2 := true; have_avx := true; have_avx2 := true;
  have_avx512f := false; have_avx512vl := false; have_avx512bw := false;
  have_power8vec := false; have_power_vsx := false; have_power_vmx := false;
  have_neon := false; have_neon_a32 := false; have_neon_a64 := false;
  support_neon_float := false;
  def_x86_64 := true; def_i386 := false; def_aarch64 := false |}.

Example C01_nonvacuous :
  elem_ok (TInt 2) /\
  fixed_size_storage isa_avx2 (TInt 2) 29
  = Some [AVecBuiltin 32; AVecBuiltin 26] /\
  fixed_size_storage isa_avx2 (TLongDouble 16) 3 = Some [AScalar; AScalar; AScalar].
Proof. repeat split; simpl; auto. Qed.

(* C02: deduce_t<T, N> has exactly N elements and is usable whenever it exists;
   it exists up to max_fixed_size; one element is the scalar ABI. *)
Theorem C02_deduce_width : forall I t n, elem_ok t -> 1 <= n ->
  (forall a, deduce I t n = Some a -> usable I t a n /\ abi_size t a = n) /\
  (n <= 32 \/ (n <= 64 /\ esize t = 1 /\ have_avx512bw I = true) ->
     exists a, deduce I t n = Some a) /\
  (n = 1 -> deduce I t n = Some AScalar).
Proof. exact c02_lemma. Qed.
Print Assumptions C02_deduce_width.

(* C02 for rebind_simd: the element count survives a change of element type. *)
Theorem C02_rebind_width : forall I t u a b, elem_ok t -> elem_ok u ->
  usable I u a (abi_size u a) ->
  rebind_abi I t u a = Some b ->
  usable I t b (abi_size u a) /\ abi_size t b = abi_size u a.
Proof. exact c02_rebind_lemma. Qed.
Print Assumptions C02_rebind_width.

Example C02_nonvacuous :
  deduce isa_avx2 TFloat 7 = Some (AVecBuiltin 28) /\
  deduce isa_avx2 TDouble 7 = Some (AFixed 7) /\
  rebind_abi isa_avx2 TDouble TFloat (AVecBuiltin 28) = Some (AFixed 7) /\
  usable isa_avx2 TFloat (AVecBuiltin 28) 7.
Proof.
  repeat split; try reflexivity; simpl; try lia; try discriminate.
  exists 32. split; [apply off_ymm; simpl; auto; lia|lia].
Qed.

(* C03, compatible<T>: always usable. *)
Theorem C03_compatible_usable : forall I t, elem_ok t -> isa_ok I ->
  usable I t (compatible_abi I t) (abi_size t (compatible_abi I t)).
Proof. exact c03_compatible_lemma. Qed.
Print Assumptions C03_compatible_usable.

(* C03, native<T>: usable and as wide as the widest register, on every target
   that does not combine AVX512VL without AVX512BW with 1- or 2-byte elements.
   Missing from the full statement: exactly that combination, where it is
   false (next theorem). *)
Theorem C03_native_partial : forall I t, elem_ok t -> isa_ok I ->
  (have_avx512vl I = true -> have_avx512bw I = true \/ 4 <= esize t) ->
  usable I t (native_abi I t) (abi_size t (native_abi I t)) /\
  ((exists w, widest I t w /\ abi_size t (native_abi I t) * esize t = w) \/
   ((forall w, ~ offers I t w) /\ native_abi I t = AScalar)).
Proof. exact c03_native_lemma. Qed.
Print Assumptions C03_native_partial.

(* The full statement of C03 is false: native<short> with AVX512F+VL but no BW. *)
Theorem C03_native_refuted : exists I t, elem_ok t /\ isa_ok I /\
  ~ usable I t (native_abi I t) (abi_size t (native_abi I t)).
Proof. exact c03_refuted_lemma. Qed.
Print Assumptions C03_native_refuted.

Example C03_nonvacuous :
  isa_ok isa_avx2 /\ elem_ok (TInt 8) /\
  native_abi isa_avx2 (TInt 8) = AVecBuiltin 32 /\
  compatible_abi isa_avx2 (TInt 8) = AVecBuiltin 16.
Proof. repeat split; simpl; auto; discriminate. Qed.
