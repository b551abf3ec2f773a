(* C54: loading masks from bool*, and loads and stores of masks under another
   mask.  Vocabulary: BoolLoadSpec.v (array, readable, merged, stored),
   MaskConvSpec.v (shows, cfeat_ok, vec_dest), X86MaskSpec.v (shape_ok, holds). *)
From Coq Require Import List ZArith Bool Arith Lia.
From Verif Require Import Prelude Abi AbiSpec Fixed FixedSpec MaskSpec BitMask KMask X86Lanes X86Mask X86MaskSpec
  MaskConv MaskConvSpec Mem BitMaskProofs FixedStorage FixedTop BoolLoad BoolLoadSpec BoolLoadProofs.
Import ListNotations.
Local Open Scope nat_scope.

(* vector masks on x86, every instruction set from SSE2 on: reads the n elements
   and nothing after them *)
Theorem C54_x86_load : forall ft const t n m l,
  cfeat_ok ft -> vec_dest ft t n -> length l = n -> array m l ->
  exists v, x86_mask_load ft const t n m = Some v /\ shows t v l.
Proof. exact x86_load. Qed.
Print Assumptions C54_x86_load.

(* vector masks elsewhere *)
Theorem C54_generic_load : forall t n m l,
  (t = 1 \/ t = 2 \/ t = 4 \/ t = 8) -> length l = n -> array m l ->
  exists v, base_mask_load t n m = Some v /\ shows t v l.
Proof. exact generic_load. Qed.
Print Assumptions C54_generic_load.

(* fixed_size masks: also no bit above the elements is set *)
Theorem C54_fixed_load : forall I n m l,
  fixed_size_type I (TInt 1) n -> length l = n -> array m l ->
  exists b, fixed_mask_load I n m = Some b /\ bm_clean n b /\ bm_list n b = l.
Proof. exact fixed_load. Qed.
Print Assumptions C54_fixed_load.

(* scalar *)
Theorem C54_scalar_load : forall m b, array m [b] -> scalar_mask_load m = Some b.
Proof. intros m b H. exact (H 0 (le_n 1)). Qed.
Print Assumptions C54_scalar_load.

(* where(mask, merge).copy_from(m) for vector masks: only the selected elements
   need to exist; padding lanes keep their values *)
Theorem C54_x86_masked_load : forall bwvl packs s mask k merge l m,
  shape_ok s -> holds s mask k -> holds s merge l -> readable m k ->
  exists r lr, x86_mask_masked_load bwvl packs s mask merge m = Some r /\ merged m k l lr /\ holds s r lr /\
    (forall i, sn s <= i -> nth i r 0%Z = nth i merge 0%Z).
Proof. exact x86_masked_load. Qed.
Print Assumptions C54_x86_masked_load.
Theorem C54_generic_masked_load : forall s mask k merge l m,
  shape_ok s -> holds s mask k -> holds s merge l -> readable m k ->
  exists r lr, base_mask_masked_load s (base_to_bits s mask) merge m = Some r /\ merged m k l lr /\ holds s r lr /\
    (forall i, sn s <= i -> nth i r 0%Z = nth i merge 0%Z).
Proof. exact generic_masked_load. Qed.
Print Assumptions C54_generic_masked_load.
Theorem C54_fixed_masked_load : forall n merge k m,
  1 <= n <= 64 -> bm_clean n merge -> bm_clean n k -> readable m (bm_list n k) ->
  exists r, fixed_mask_masked_load n merge k m = Some r /\ bm_clean n r /\
    merged m (bm_list n k) (bm_list n merge) (bm_list n r).
Proof. exact fixed_masked_load. Qed.
Print Assumptions C54_fixed_masked_load.
Theorem C54_scalar_masked_load : forall merge k m, readable m [k] ->
  exists r, scalar_mask_masked_load merge k m = Some r /\ merged m [k] [merge] [r].
Proof. exact scalar_masked_ok. Qed.
Print Assumptions C54_scalar_masked_load.

(* where(mask, v).copy_to(m): writes the selected elements and nothing else *)
Theorem C54_x86_masked_store : forall packs s mask k v l m,
  shape_ok s -> holds s mask k -> holds s v l -> readable m k ->
  exists m', mask_masked_store (x86_to_bits packs s mask) v m = Some m' /\ stored m k l m'.
Proof. exact vector_masked_store. Qed.
Print Assumptions C54_x86_masked_store.
Theorem C54_generic_masked_store : forall s mask k v l m,
  shape_ok s -> holds s mask k -> holds s v l -> readable m k ->
  exists m', mask_masked_store (base_to_bits s mask) v m = Some m' /\ stored m k l m'.
Proof. exact generic_masked_store. Qed.
Print Assumptions C54_generic_masked_store.
Theorem C54_fixed_masked_store : forall n v k m,
  1 <= n <= 64 -> bm_clean n k -> readable m (bm_list n k) ->
  exists m', fixed_mask_masked_store n v k m = Some m' /\ stored m (bm_list n k) (bm_list n v) m'.
Proof. exact fixed_masked_store. Qed.
Print Assumptions C54_fixed_masked_store.
Theorem C54_scalar_masked_store : forall v k m, readable m [k] ->
  exists m', scalar_mask_masked_store v k m = Some m' /\ stored m [k] [v] m'.
Proof. exact scalar_store_ok. Qed.
Print Assumptions C54_scalar_masked_store.

(* 3 floats on a machine with SSE2 only: the fourth bool does not exist; 3 elements
   under a mask that selects the first and the last, with garbage in the padding *)
Definition three : list bool := [true; false; true].
Definition bools (l : list bool) : mem bool := nth_error l.
Definition sse2_only : cfeat :=
  {| c_ssse3 := false; c_avx := false; c_avx2 := false; c_avx512f := false;
     c_avx512vl := false; c_avx512bw := false; c_avx512dq := false |}.
Definition shape3 : X86Mask.shape := {| sz := 4; fp := true; st := 4; rl := 4; sn := 3 |}.
Definition ones : Z := (2 ^ 32 - 1)%Z.
Example C54_nonvacuous :
  cfeat_ok sse2_only /\ vec_dest sse2_only 4 3 /\ array (bools three) three /\ bools three 3 = None /\
  option_map (firstn 12) (x86_mask_load sse2_only false 4 3 (bools three)) =
    Some (map Some [255; 255; 255; 255; 0; 0; 0; 0; 255; 255; 255; 255]%Z) /\
  shape_ok shape3 /\ holds shape3 [ones; 0; ones; 77]%Z three /\ readable (bools three) three /\
  x86_mask_masked_load false false shape3 [ones; 0; ones; 77]%Z [0; ones; 0; 5]%Z (bools three) =
    Some [ones; ones; ones; 5]%Z /\
  option_map (fun m => map m (seq 0 4))
    (mask_masked_store (x86_to_bits false shape3 [ones; 0; ones; 77]%Z) [0; ones; ones; 5]%Z (bools three)) =
    Some [Some false; Some false; Some true; None].
Proof.
  split; [repeat split; discriminate|].
  split; [repeat split; cbn; try lia; auto|].
  split; [intros [|[|[|i]]] Hi; cbn in *; auto; lia|].
  split; [reflexivity|]. split; [reflexivity|].
  split; [unfold shape_ok, shape3; cbn [sz fp st rl sn]; intuition lia|].
  split.
  { split; [reflexivity|]. split; [reflexivity|]. split; intros i Hi; cbn [sn st sz shape3] in *;
      destruct i as [|[|[|[|i]]]]; cbn [nth three]; try reflexivity; try lia; unfold ones; cbn; lia. }
  split; [intros [|[|[|i]]] Hi; cbn in *; try discriminate; destruct i; discriminate|].
  split; reflexivity.
Qed.
