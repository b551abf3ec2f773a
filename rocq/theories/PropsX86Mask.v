(* C31: reductions of vector masks.  C43: the constant and the run-time path of
   the mask reductions.  Vocabulary: MaskSpec.v, X86MaskSpec.v, KMaskSpec.v. *)
From Coq Require Import List ZArith Bool Arith Lia.
From Verif Require Import Prelude MaskSpec BitMask KMask KMaskSpec X86Mask X86MaskSpec
  ConstRed X86MaskProofs KMaskProofs BitMaskProofs ConstRedProofs C43Proofs.
Import ListNotations.

(* C31: for every element type, every number of elements and every content of
   the padding lanes, with or without SSE4.1. *)
Theorem C31_reductions : forall f s x l, shape_ok s -> holds s x l ->
  x86_all_of f s x = all_true l /\
  x86_any_of f s x = any_true l /\
  x86_none_of f s x = negb (any_true l) /\
  x86_some_of f s x = (any_true l && negb (all_true l))%bool.
Proof. exact c31_reductions. Qed.
Print Assumptions C31_reductions.

(* find_first_set and find_last_set through _S_to_bits, with and without the
   packs instruction for 2-byte elements *)
Theorem C31_find : forall packs s x l, shape_ok s -> holds s x l -> any_true l = true ->
  is_first_true l (x86_find_first_set packs s x) /\
  exists i, x86_find_last_set packs s x = Z.of_nat i /\ is_last_true l i.
Proof. exact c31_find. Qed.
Print Assumptions C31_find.

(* popcount: with the popcnt instruction, or in 16-byte registers, or with 8-byte
   elements.  Missing: C31_popcount_refuted. *)
Theorem C31_popcount_partial : forall f s x l, shape_ok s -> holds s x l ->
  (f_popcnt f = true \/ rl s * sz s = 16 \/ sz s = 8) ->
  x86_popcount f s x = Some (Z.of_nat (count_true l)).
Proof. intros f s x l Hs Hh. exact (x86_popcount_ok f s x l Hh Hs). Qed.
Print Assumptions C31_popcount_partial.

(* Without popcnt, in 32-byte registers with elements below 8 bytes, the function
   ends without a return statement (None), whatever the mask. *)
Theorem C31_popcount_refuted : forall f s x, shape_ok s -> f_popcnt f = false ->
  rl s * sz s = 32 /\ sz s <> 8 -> x86_popcount f s x = None.
Proof. exact x86_popcount_missing. Qed.
Print Assumptions C31_popcount_refuted.

(* the generic versions for targets other than x86 and NEON *)
Theorem C31_generic : forall s x l, shape_ok s -> holds s x l ->
  base_all_of s x = all_true l /\
  base_any_of s x = any_true l /\
  base_none_of s x = negb (any_true l) /\
  base_some_of s x = (any_true l && negb (all_true l))%bool /\
  base_popcount s x = Z.of_nat (count_true l).
Proof. exact c31_generic. Qed.
Print Assumptions C31_generic.

(* 3 floats in 16 bytes, the fourth lane arbitrary; 5 shorts in 16 bytes *)
Definition m3 : shape := {| sz := 4; fp := true; st := 4; rl := 4; sn := 3 |}.
Definition m32 : shape := {| sz := 2; fp := false; st := 16; rl := 16; sn := 11 |}.
Example C31_nonvacuous :
  shape_ok m3 /\ holds m3 [4294967295; 0; 4294967295; 12345]%Z [true; false; true] /\
  x86_popcount {| f_sse41 := false; f_avx := false; f_popcnt := false |} m3
    [4294967295; 0; 4294967295; 12345]%Z = Some 2%Z /\
  x86_any_of {| f_sse41 := true; f_avx := true; f_popcnt := true |} m3 [0; 0; 0; 4294967295]%Z = false /\
  shape_ok m32 /\ rl m32 * sz m32 = 32 /\ sz m32 <> 8.
Proof.
  unfold shape_ok, holds, m3, m32; cbn [sz fp st rl sn].
  repeat match goal with |- _ /\ _ => split end; auto; try lia; try reflexivity.
  - intros i Hi. do 3 (destruct i; [reflexivity|]). lia.
  - intros i Hi. do 4 (destruct i; [cbn; lia|]). lia.
Qed.

(* C43: what the element-wise loops of simd.h compute, for any mask *)
Theorem C43_constant_path : forall k n,
  let l := map k (seq 0 n) in
  c_all_of k n = all_true l /\
  c_any_of k n = any_true l /\
  c_none_of k n = negb (any_true l) /\
  c_some_of k n = (any_true l && negb (all_true l))%bool /\
  c_popcount k n = count_true l /\
  (forall i, c_find_first_set k n = Some i <-> is_first_true l i) /\
  (forall i, c_find_last_set k n = Some (Z.of_nat i) <-> is_last_true l i) /\
  (c_find_first_set k n = None <-> any_true l = false) /\
  (c_find_last_set k n = None <-> any_true l = false).
Proof. exact c43_constant. Qed.
Print Assumptions C43_constant_path.

(* fixed_size: after any mask program the loops over operator[] and the bit
   operations return the same values *)
Theorem C43_fixed : forall n e, 1 <= n -> n <= 64 -> mexpr_ok n e ->
  let k := fsm_eval n e in
  c_all_of (bm_get n k) n = fsm_all_of n k /\
  c_any_of (bm_get n k) n = fsm_any_of n k /\
  c_none_of (bm_get n k) n = fsm_none_of n k /\
  c_some_of (bm_get n k) n = fsm_some_of n k /\
  c_popcount (bm_get n k) n = fsm_popcount n k /\
  (any_true (mask_meaning n e) = true ->
   c_find_first_set (bm_get n k) n = Some (fsm_find_first_set k) /\
   c_find_last_set (bm_get n k) n = Some (fsm_find_last_set k)).
Proof. exact c43_fixed. Qed.
Print Assumptions C43_fixed.

(* vector masks on x86; popcount in the cases of C31_popcount_partial *)
Theorem C43_vector : forall f packs s x l, shape_ok s -> holds s x l ->
  c_all_of (v_get x) (sn s) = x86_all_of f s x /\
  c_any_of (v_get x) (sn s) = x86_any_of f s x /\
  c_none_of (v_get x) (sn s) = x86_none_of f s x /\
  c_some_of (v_get x) (sn s) = x86_some_of f s x /\
  (f_popcnt f = true \/ rl s * sz s = 16 \/ sz s = 8 ->
   Some (Z.of_nat (c_popcount (v_get x) (sn s))) = x86_popcount f s x) /\
  (any_true l = true ->
   c_find_first_set (v_get x) (sn s) = Some (x86_find_first_set packs s x) /\
   c_find_last_set (v_get x) (sn s) = Some (x86_find_last_set packs s x)).
Proof. exact c43_vector. Qed.
Print Assumptions C43_vector.

(* vector masks elsewhere *)
Theorem C43_generic : forall s x l, shape_ok s -> holds s x l ->
  c_all_of (v_get x) (sn s) = base_all_of s x /\
  c_any_of (v_get x) (sn s) = base_any_of s x /\
  c_none_of (v_get x) (sn s) = base_none_of s x /\
  c_some_of (v_get x) (sn s) = base_some_of s x /\
  Z.of_nat (c_popcount (v_get x) (sn s)) = base_popcount s x.
Proof. exact c43_generic. Qed.
Print Assumptions C43_generic.

(* scalar masks *)
Theorem C43_scalar : forall b k, (forall i, k i = b) ->
  c_all_of k 1 = s_all_of b /\
  c_any_of k 1 = s_any_of b /\
  c_none_of k 1 = s_none_of b /\
  c_some_of k 1 = s_some_of b /\
  c_popcount k 1 = s_popcount b /\
  (b = true -> c_find_first_set k 1 = Some (s_find_first_set b) /\
               c_find_last_set k 1 = Some (s_find_last_set b)).
Proof. exact c43_scalar. Qed.
Print Assumptions C43_scalar.

(* AVX-512 mask registers: every reduction agrees except find_last_set *)
Theorem C43_kmask_partial : forall vl dq n e, size_ok n -> kexpr_ok n e ->
  let k := k_eval vl n e in
  c_all_of (k_get k) n = k_all_of dq n k /\
  c_any_of (k_get k) n = k_any_of n k /\
  c_none_of (k_get k) n = k_none_of n k /\
  c_some_of (k_get k) n = k_some_of dq n k /\
  c_popcount (k_get k) n = k_popcount n k /\
  (any_true (k_meaning n e) = true ->
   c_find_first_set (k_get k) n = Some (k_find_first_set n k) /\
   (cleans e -> c_find_last_set (k_get k) n = Some (k_find_last_set k))).
Proof. exact c43_kmask. Qed.
Print Assumptions C43_kmask_partial.

(* the integer x != y with fewer elements than bits in the mask word: the
   constant path never returns what the run-time path returns *)
Theorem C43_find_last_set_refuted : forall vl n l, size_ok n -> n < kw n ->
  n <= length l <= kw n ->
  let k := k_eval vl n (KIntNe l) in
  c_find_last_set (k_get k) n <> Some (k_find_last_set k).
Proof. exact c43_refuted. Qed.
Print Assumptions C43_find_last_set_refuted.

Example C43_nonvacuous :
  c_find_last_set (k_get (k_eval true 3 (KIntNe [false; true; false; true]))) 3 = Some 2%Z /\
  k_find_last_set (k_eval true 3 (KIntNe [false; true; false; true])) = 7%Z /\
  c_some_of (v_get [4294967295; 0; 4294967295; 12345]%Z) 3 = true /\
  c_find_first_set (v_get [0; 0; 4294967295; 12345]%Z) 3 = Some 2 /\
  c_find_first_set (v_get [0; 0; 0; 12345]%Z) 3 = None /\
  c_popcount (v_get [4294967295; 0; 4294967295; 12345]%Z) 3 = 2.
Proof. repeat split; reflexivity. Qed.
