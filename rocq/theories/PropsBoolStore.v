(* C30: storing a mask to bool*.  Vocabulary: BoolStoreSpec.v (stores), MaskSpec.v,
   KMaskSpec.v, X86MaskSpec.v. *)
From Coq Require Import List ZArith Bool Arith Lia.
From Verif Require Import Prelude MaskSpec BitMask KMask KMaskSpec X86Mask X86MaskSpec BoolStore
  BoolStoreSpec BitMaskProofs KMaskProofs X86MaskProofs BoolStoreProofs.
Import ListNotations.

(* fixed_size masks on x86, after any mask program: byte expansion by vpmovm2b,
   pdep, unpack-and-compare, packs or multiplication *)
Theorem C30_fixed_x86 : forall f be n e, 1 <= n -> n <= 64 -> mexpr_ok n e ->
  stores (fixed_store (Some f) be n (fsm_eval n e)) (mask_meaning n e).
Proof. exact c30_fixed_x86. Qed.
Print Assumptions C30_fixed_x86.

(* fixed_size masks elsewhere: the multiplication tricks, on little-endian
   targets.  Missing: big-endian targets, see C30_big_endian_refuted. *)
Theorem C30_fixed_generic_partial : forall n e, 1 <= n -> n <= 64 -> mexpr_ok n e ->
  stores (fixed_store None false n (fsm_eval n e)) (mask_meaning n e).
Proof. exact c30_fixed_generic. Qed.
Print Assumptions C30_fixed_generic_partial.

(* On a big-endian target the bytes of the product are in the opposite order in
   memory: masks of 2 and of 4 elements are stored backwards. *)
Theorem C30_big_endian_refuted : forall k m,
  (bm_clean 2 k ->
   run_writes (fixed_store None true 2 k) m 0 = b2z (bm_get 2 k 1) /\
   run_writes (fixed_store None true 2 k) m 1 = b2z (bm_get 2 k 0)) /\
  (bm_clean 4 k -> forall i, i < 4 ->
   run_writes (fixed_store None true 4 k) m i = b2z (bm_get 4 k (3 - i))).
Proof. intros k m. exact (conj (be_two k m) (fun H i => be_four k m i H)). Qed.
Print Assumptions C30_big_endian_refuted.

(* AVX-512 mask registers, after any mask program, even when bits above the
   elements are set; without AVX512BW+VL a mask has at most 16 elements *)
Theorem C30_kmask : forall bwvl x64 vl n e, size_ok n -> (bwvl = true \/ n <= 16) -> kexpr_ok n e ->
  stores (k_store bwvl x64 n (k_eval vl n e)) (k_meaning n e).
Proof.
  intros bwvl x64 vl n e Hn Hf He.
  exact (k_store_ok bwvl x64 n _ _ Hn Hf (c21_elements vl n e Hn He)).
Qed.
Print Assumptions C30_kmask.

(* vector masks on x86 with SSE2 or later, and the generic loop elsewhere,
   whatever the padding lanes contain *)
Theorem C30_vector : forall avx2 s x l, shape_ok s -> holds s x l ->
  stores (vec_store avx2 s x) l.
Proof. exact vec_store_ok. Qed.
Print Assumptions C30_vector.
Theorem C30_generic_vector : forall s x l, shape_ok s -> holds s x l ->
  stores (base_store s x) l.
Proof. exact base_store_ok. Qed.
Print Assumptions C30_generic_vector.

(* 11 elements: the program of the 7-bit multiplication after one 4-bit one; the
   bytes after the last element stay 9 *)
Definition prog11 : mexpr :=
  EBitset [true; true; false; true; false; true; true; false; false; true; true].
Definition avx512f_only : bs_feat :=
  {| b_bwvl := false; b_bmi2 := false; b_sse2 := true; b_avx512f := true; b_x64 := true |}.
Example C30_nonvacuous :
  mexpr_ok 11 prog11 /\
  map (run_writes (fixed_store None false 11 (fsm_eval 11 prog11)) (fun _ => 9%Z)) (seq 0 13)
  = [1; 1; 0; 1; 0; 1; 1; 0; 0; 1; 1; 9; 9]%Z /\
  map (run_writes (fixed_store (Some avx512f_only) false 11 (fsm_eval 11 prog11)) (fun _ => 9%Z)) (seq 0 13)
  = [1; 1; 0; 1; 0; 1; 1; 0; 0; 1; 1; 9; 9]%Z /\
  map (run_writes (k_store false true 3 253) (fun _ => 9%Z)) (seq 0 5) = [1; 0; 1; 9; 9]%Z /\
  map (run_writes (vec_store false {| sz := 4; fp := true; st := 4; rl := 4; sn := 3 |}
                     [4294967295; 0; 4294967295; 12345]%Z) (fun _ => 9%Z)) (seq 0 5) = [1; 0; 1; 9; 9]%Z /\
  bm_clean 2 [1%Z] /\ run_writes (fixed_store None true 2 [1%Z]) (fun _ => 9%Z) 0 = 0%Z.
Proof.
  assert (C : bm_clean 2 (fsm_eval 2 (EBitset [true; false])))
    by (apply fsm_eval_spec; [lia|lia|reflexivity]).
  split; [reflexivity|]. do 4 (split; [reflexivity|]). split; [exact C|reflexivity].
Qed.
