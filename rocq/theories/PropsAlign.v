(* Properties of alignment promises.  An object or array at address addr is
   A-aligned iff A divides addr. *)
From Coq Require Import List ZArith Bool Arith Lia.
From Verif Require Import Prelude BitMask Abi AbiSpec AbiProofs Align AlignProofs.
Import ListNotations.
Local Open Scope Z_scope.

(* C04, split<Sizes...>(x): the promise for the part at element offset off of a
   2^e-aligned object is a power of two and divides the address read. *)
Theorem C04_split_promise_true : forall e addr off s, 0 <= e -> 0 <= off -> 0 <= s ->
  (2 ^ e | addr) ->
  exists k, 0 <= k /\ split_alignment (2 ^ e) off s = 2 ^ k /\
    (split_alignment (2 ^ e) off s | addr + off * s).
Proof. exact c04_split_lemma. Qed.
Print Assumptions C04_split_promise_true.

(* and no larger power of two would be true for every object address *)
Theorem C04_split_promise_tight : forall e off s k, 0 <= e -> 0 <= off -> 0 <= s ->
  split_alignment (2 ^ e) off s < 2 ^ k -> 0 <= k ->
  exists addr, (2 ^ e | addr) /\ ~ (2 ^ k | addr + off * s).
Proof. exact c04_split_tight_lemma. Qed.
Print Assumptions C04_split_promise_tight.

Example C04_split_nonvacuous :
  split_alignment (2 ^ 5) 6 4 = 8 /\ (2 ^ 5 | 96) /\ split_alignment (2 ^ 5) 16 2 = 32.
Proof. repeat split; exists 3; reflexivity. Qed.

(* the alignment of every valid simd type is a power of two, as the theorems
   above ask *)
Theorem C04_object_alignment : forall I t al a,
  elem_ok t -> abi_valid I t a = true -> (exists k, al = 2 ^ k)%nat ->
  exists k, abi_align I t al a = (2 ^ k)%nat.
Proof. exact c04_align_pow2_lemma. Qed.
Print Assumptions C04_object_alignment.

Example C04_object_alignment_nonvacuous :
  abi_align AbiProofs.isa_vl_no_bw (TInt 4) 4 (AVecBuiltin 12) = 16%nat.
Proof. reflexivity. Qed.

(* memory_alignment_v<simd of n elements, U of s bytes> *)
Theorem C04_memory_alignment : forall s n, (1 <= s)%nat -> (1 <= n)%nat ->
  (exists k, vector_alignment s n = 2 ^ k)%nat /\
  (s * n <= vector_alignment s n)%nat /\
  (forall k, s * n <= 2 ^ k -> vector_alignment s n <= 2 ^ k)%nat.
Proof. exact c04_memory_alignment_lemma. Qed.
Print Assumptions C04_memory_alignment.

(* split<V>(x), fixed_size into equal fixed_size parts without padding *)
Theorem C04_split_array_promise_true : forall t vsize parts i addr,
  (1 <= esize t)%nat -> (1 <= vsize)%nat -> (1 <= parts)%nat -> (i < parts)%nat ->
  fixed_no_padding t vsize ->
  (Z.of_nat (bit_ceil (parts * vsize * esize t)) | addr) ->
  (Z.of_nat (split_array_promise t vsize) | split_array_address addr t vsize i).
Proof. exact c04_split_array_lemma. Qed.
Print Assumptions C04_split_array_promise_true.

Example C04_split_array_nonvacuous :
  fixed_no_padding (TInt 2) 4 /\ bit_ceil (3 * 4 * 2) = 32%nat /\
  split_array_promise (TInt 2) 4 = 8%nat /\
  split_array_address 64 (TInt 2) 4 2 = 80.
Proof. repeat split. exists 1%nat. reflexivity. Qed.

(* split<V>(x), fixed_size into scalars, for element types whose size is a power
   of two.  Missing from the full statement: long double of 12 bytes (i386). *)
Theorem C04_split_scalar_partial : forall t k parts i addr,
  esize t = (2 ^ k)%nat -> (1 <= parts)%nat -> (i < parts)%nat ->
  (Z.of_nat (bit_ceil (parts * 1 * esize t)) | addr) ->
  (Z.of_nat (split_array_promise t 1) | split_array_address addr t 1 i).
Proof. exact c04_split_scalar_lemma. Qed.
Print Assumptions C04_split_scalar_partial.

Example C04_split_scalar_nonvacuous :
  esize TDouble = (2 ^ 3)%nat /\ split_array_promise TDouble 1 = 8%nat.
Proof. split; reflexivity. Qed.

(* False on i386: reading the scalars of a fixed_size_simd<long double, 2>
   promises 16-byte alignment at byte offset 12. *)
Theorem C04_split_scalar_refuted : exists t parts i addr,
  elem_ok t /\ (i < parts)%nat /\
  (Z.of_nat (bit_ceil (parts * 1 * esize t)) | addr) /\
  ~ (Z.of_nat (split_array_promise t 1) | split_array_address addr t 1 i).
Proof. exact c04_refuted_lemma. Qed.
Print Assumptions C04_split_scalar_refuted.

(* False on every target: the implicit conversion fixed_size<N> -> fixed_size<N>
   promises vector alignment for a temporary that is only aligned to its
   element type. *)
Theorem C04_convert_ctor_refuted : exists u n al addr,
  elem_ok u /\ al = esize u /\ (1 <= n)%nat /\ (n <= 32)%nat /\
  convert_ctor_address_ok al addr /\ ~ (Z.of_nat (convert_ctor_promise u n) | addr).
Proof. exact c04_convert_refuted_lemma. Qed.
Print Assumptions C04_convert_ctor_refuted.
