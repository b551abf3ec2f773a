(* C50: casts between mask types; C15: vector and AVX-512 masks and bitsets. *)
From Coq Require Import List ZArith Bool Arith Lia.
From Verif Require Import Prelude MaskSpec BitMask BitMaskProofs KMask KMaskSpec X86Lanes X86Mask X86MaskSpec
  MaskConv MaskConvSpec MaskConvProofs MaskConvBits MaskConvTop.
Import ListNotations.
Local Open Scope nat_scope.

(* The argument o has the elements l; its other bits and lanes are arbitrary. *)
Theorem C50_to_scalar : forall o l, is_mask o l -> to_scalar o = nth 0 l false.
Proof. exact to_scalar_all. Qed.
Print Assumptions C50_to_scalar.

(* to fixed_size<m>, smaller or larger *)
Theorem C50_to_fixed_size : forall packs m o l, is_mask o l -> 1 <= m <= 64 ->
  bm_clean m (to_fixed packs m o) /\ bm_list m (to_fixed packs m o) = resized m l.
Proof. exact to_fixed_all. Qed.
Print Assumptions C50_to_fixed_size.

(* to AVX-512 masks and vector masks of at most as many elements *)
Theorem C50_to_avx512 : forall packs m o l, is_mask o l -> 2 <= m <= length l -> m <= 64 ->
  forall i, i < m -> k_get (to_kmask packs m o) i = nth i l false.
Proof.
  intros. rewrite KMaskProofs.k_get_bit. apply to_kmask_all; auto; lia.
Qed.
Print Assumptions C50_to_avx512.

Theorem C50_to_vector : forall ft const t m o l, is_mask o l -> cfeat_ok ft -> vec_dest ft t m ->
  m <= length l -> shows t (to_vec ft const t m o) (resized m l).
Proof. intros. apply to_vec_shows; auto. Qed.
Print Assumptions C50_to_vector.

(* more elements than the argument has: missing are arguments with stray bits,
   and the registers whose upper half stays undefined *)
Theorem C50_grow_avx512_partial : forall packs m o l, is_mask o l -> 2 <= m <= 64 -> no_stray o ->
  forall i, i < m -> k_get (to_kmask packs m o) i = nth i l false.
Proof.
  intros. rewrite KMaskProofs.k_get_bit. apply to_kmask_all; auto.
Qed.
Print Assumptions C50_grow_avx512_partial.

Theorem C50_grow_vector_partial : forall ft const t m o l, is_mask o l -> cfeat_ok ft -> vec_dest ft t m ->
  no_stray o -> ~ upper_undefined const t m o -> shows t (to_vec ft const t m o) (resized m l).
Proof. intros. apply to_vec_shows; auto. Qed.
Print Assumptions C50_grow_vector_partial.

Definition sse_ft := {| c_ssse3 := false; c_avx := false; c_avx2 := false; c_avx512f := false;
  c_avx512vl := false; c_avx512bw := false; c_avx512dq := false |}.
Definition avx_ft := {| c_ssse3 := true; c_avx := true; c_avx2 := false; c_avx512f := false;
  c_avx512vl := false; c_avx512bw := false; c_avx512dq := false |}.
Definition floats4 := {| sz := 4; fp := true; st := 4; rl := 4; sn := 4 |}.
Definition floats3 := {| sz := 4; fp := true; st := 4; rl := 4; sn := 3 |}.

Lemma floats4_ok : shape_ok floats4.
Proof. repeat split; cbn; auto; lia. Qed.
Lemma floats3_ok : shape_ok floats3.
Proof. repeat split; cbn; auto; lia. Qed.
Ltac mask4 := intros i Hi; cbn in Hi; do 4 (destruct i as [|i]; [try lia; vm_compute; auto; split; congruence|]); lia.

(* resizing_simd_cast of four floats to eight: element 4 is an undefined value *)
Theorem C50_grow_undefined_refuted : exists ft t m o l,
  is_mask o l /\ cfeat_ok ft /\ vec_dest ft t m /\ no_stray o /\
  nth (4 * t) (to_vec ft false t m o) None = None /\ 4 < m /\ nth 4 (resized m l) true = false.
Proof.
  exists avx_ft, 4, 8, (MVec floats4 [0; 4294967295; 0; 0]%Z), [false; true; false; false].
  split; [split; [apply floats4_ok|split; [reflexivity|split; [reflexivity|split; [reflexivity|split]]]]; mask4|].
  split; [repeat split; cbn; auto|]. split; [unfold vec_dest; cbn; lia|].
  split; [intros i Hi; cbn in Hi; lia|]. split; [reflexivity|]. split; [lia|reflexivity].
Qed.
Print Assumptions C50_grow_undefined_refuted.

(* three floats with a non-zero padding lane to eight shorts: element 3 is true *)
Theorem C50_grow_padding_refuted : exists ft t m o l,
  is_mask o l /\ cfeat_ok ft /\ vec_dest ft t m /\ ~ upper_undefined false t m o /\
  length l = 3 /\ t = 2 /\ m = 8 /\ nth (3 * t) (to_vec ft false t m o) None = Some 255%Z /\
  nth 3 (resized m l) true = false.
Proof.
  exists sse_ft, 2, 8, (MVec floats3 [0; 0; 0; 4294967295]%Z), [false; false; false].
  split; [split; [apply floats3_ok|split; [reflexivity|split; [reflexivity|split; [reflexivity|split]]]]; mask4|].
  split; [repeat split; cbn; auto|]. split; [unfold vec_dest; cbn; lia|].
  split; [unfold upper_undefined; cbn; lia|].
  split; [reflexivity|]. split; [reflexivity|]. split; [reflexivity|]. split; reflexivity.
Qed.
Print Assumptions C50_grow_padding_refuted.

(* AVX-512: the stray bits that != leaves in a mask of four become elements of a
   mask of eight *)
Theorem C50_grow_bits_refuted : exists packs o l,
  is_mask o l /\ length l = 4 /\ k_get (to_kmask packs 8 o) 5 = true /\ nth 5 (resized 8 l) true = false.
Proof.
  exists true, (MBits 4 0xf0), [false; false; false; false].
  split; [split; [lia|split; [reflexivity|split; [vm_compute; split; congruence|]]]; mask4|].
  split; [reflexivity|]. split; reflexivity.
Qed.
Print Assumptions C50_grow_bits_refuted.

(* AVX-512: a cast to fewer elements keeps the bits beyond them, and
   find_last_set of the result is no element *)
Theorem C50_shrink_find_last_set_refuted : exists packs o l,
  is_mask o l /\ no_stray o /\ length l = 8 /\ any_true (resized 4 l) = true /\
  k_find_last_set (to_kmask packs 4 o) = 7%Z /\ is_last_true (resized 4 l) 1.
Proof.
  exists true, (MBits 8 0x82), [false; true; false; false; false; false; false; true].
  split; [split; [lia|split; [reflexivity|split; [vm_compute; split; congruence|]]]|].
  { intros i Hi. do 8 (destruct i as [|i]; [reflexivity|]). lia. }
  split; [reflexivity|]. split; [reflexivity|]. split; [reflexivity|]. split; [reflexivity|].
  unfold is_last_true. cbn. split; [reflexivity|].
  intros j H1 H2. do 4 (destruct j as [|j]; [lia || reflexivity|]). lia.
Qed.
Print Assumptions C50_shrink_find_last_set_refuted.

(* three floats with dirty padding to every representation *)
Example C50_nonvacuous :
  let o := MVec floats3 [4294967295; 0; 4294967295; 4294967295]%Z in
  is_mask o [true; false; true] /\ to_scalar o = true /\ to_fixed true 3 o = [5%Z] /\ to_fixed true 9 o = [5%Z] /\
  to_kmask true 3 o = 5%Z /\ vec_dest sse_ft 8 2 /\
  to_vec sse_ft false 8 2 o = repeat (Some 255%Z) 8 ++ repeat (Some 0%Z) 8.
Proof.
  cbv zeta. split; [split; [apply floats3_ok|split; [reflexivity|split; [reflexivity|split; [reflexivity|split]]]]; mask4|].
  split; [reflexivity|]. split; [reflexivity|]. split; [reflexivity|]. split; [reflexivity|].
  split; [unfold vec_dest; cbn; lia|]. reflexivity.
Qed.

(* C15. *)
(* __to_bitset of a vector mask: x86 instructions, and the generic loop *)
Theorem C15_vector_to_bitset : forall packs s x l, shape_ok s -> holds s x l ->
  (0 <= x86_to_bits packs s x < 2 ^ Z.of_nat (sn s))%Z /\
  forall i, Z.testbit (x86_to_bits packs s x) (Z.of_nat i) = nth i l false.
Proof. exact vec_to_bitset. Qed.
Print Assumptions C15_vector_to_bitset.

Theorem C15_generic_to_bitset : forall s x l, shape_ok s -> holds s x l ->
  (0 <= base_to_bits s x < 2 ^ Z.of_nat (sn s))%Z /\
  forall i, Z.testbit (base_to_bits s x) (Z.of_nat i) = nth i l false.
Proof. exact base_to_bitset. Qed.
Print Assumptions C15_generic_to_bitset.

(* __from_bitset: k is the bitset *)
Theorem C15_vector_from_bitset : forall ft const t m k i b, cfeat_ok ft -> vec_dest ft t m ->
  (0 <= k < 2 ^ Z.of_nat m)%Z -> i < m -> b < t ->
  nth (i * t + b) (x86_bits_to_vec ft const m t m k) None
    = Some (if Z.testbit k (Z.of_nat i) then 255%Z else 0%Z).
Proof.
  intros ft const t m k i b Hft Hd Hk Hi Hb. pose proof Hd as (Ht & Hm & Htm & _).
  apply (bits_all ft const m t m k i b); auto. destruct Ht as [-> | [-> | [-> | ->]]]; lia.
Qed.
Print Assumptions C15_vector_from_bitset.

(* the generic _S_to_maskvector; b is the bitset's _BitMask *)
Theorem C15_generic_from_bitset : forall t m b i c, (t = 1 \/ t = 2 \/ t = 4 \/ t = 8) -> 2 <= m -> t * m <= 32 ->
  i < m -> c < t ->
  nth (i * t + c) (base_bits_to_vec m t m b) None = Some (if bm_get m b i then 255%Z else 0%Z).
Proof.
  intros t m b i c Ht Hm Htm Hi Hc. rewrite base_bits_ok by (auto; lia).
  destruct (Nat.ltb_spec i m); [reflexivity|lia].
Qed.
Print Assumptions C15_generic_from_bitset.

(* both ways round *)
Theorem C15_vector_roundtrip : forall ft const packs s x, cfeat_ok ft -> vec_dest ft (sz s) (sn s) ->
  shape_ok s -> st s = bit_ceil (sn s) ->
  (forall l, holds s x l ->
     shows (sz s) (x86_bits_to_vec ft const (sn s) (sz s) (sn s) (x86_to_bits packs s x)) l) /\
  (forall k, (0 <= k < 2 ^ Z.of_nat (sn s))%Z -> length x = st s ->
     (forall i, i < st s -> (0 <= nth i x 0 < 2 ^ (8 * Z.of_nat (sz s)))%Z) ->
     (forall i b, i < sn s -> b < sz s -> nth (i * sz s + b) (lane_bytes s x) None
        = nth (i * sz s + b) (x86_bits_to_vec ft const (sn s) (sz s) (sn s) k) None) ->
     x86_to_bits packs s x = k).
Proof.
  intros. split; intros; [apply vec_to_from; auto|eapply vec_from_to; eauto].
Qed.
Print Assumptions C15_vector_roundtrip.

(* AVX-512 masks *)
Theorem C15_avx512_bitset : forall packs n, 2 <= n <= 64 ->
  (forall k l, is_mask (MBits n k) l -> bm_list n (snd (obj_to_bits packs (MBits n k))) = l) /\
  (forall b, bm_clean n b -> snd (obj_to_bits packs (MBits n (to_kmask packs n (MFixed n b)))) = b).
Proof. exact avx512_bitset. Qed.
Print Assumptions C15_avx512_bitset.

Example C15_avx512_nonvacuous :
  is_mask (MBits 4 0xf5) [true; false; true; false] /\ snd (obj_to_bits true (MBits 4 0xf5)) = [5%Z] /\
  bm_clean 4 [5%Z] /\ to_kmask true 4 (MFixed 4 [5%Z]) = 5%Z.
Proof.
  split; [split; [lia|split; [reflexivity|split; [vm_compute; split; congruence|]]]; mask4|].
  split; [reflexivity|]. split; [|reflexivity]. split.
  - split; [reflexivity|]. repeat constructor; vm_compute; congruence.
  - intros i Hi. cbn in Hi. do 8 (destruct i as [|i]; [try lia; reflexivity|]). lia.
Qed.

Example C15_vector_nonvacuous :
  holds floats3 [4294967295; 0; 4294967295; 7]%Z [true; false; true] /\
  x86_to_bits true floats3 [4294967295; 0; 4294967295; 7]%Z = 5%Z /\
  base_to_bits floats3 [4294967295; 0; 4294967295; 7]%Z = 5%Z /\
  vec_dest sse_ft 4 3 /\
  x86_bits_to_vec sse_ft false 3 4 3 5 = repeat (Some 255%Z) 4 ++ repeat (Some 0%Z) 4 ++ repeat (Some 255%Z) 4 ++ repeat (Some 0%Z) 4.
Proof.
  split; [split; [reflexivity|split; [reflexivity|split]]; mask4|].
  split; [reflexivity|]. split; [reflexivity|]. split; [unfold vec_dest; cbn; lia|]. reflexivity.
Qed.
