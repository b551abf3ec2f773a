(* C18: padding lanes are unobservable.
   Two runs of the same program start from registers with the same n elements
   and any padding.  Vocabulary: PaddingSpec.v; agree n x x' says that the first
   n lanes are the same, both R says that either both runs are undefined or R
   holds between their results. *)
From Coq Require Import List ZArith Bool Arith Lia.
From Verif Require Import Prelude MaskSpec BitMask KMask KMaskSpec X86Lanes X86ShiftSpec X86Mul X86Div IntDiv IntDivSpec X86Mask X86MaskSpec.
From Verif Require Import Abi AbiSpec PropsAbi Targets Mem MemSpec MemProofs Reduce ReduceSpec PropsReduce PropsX86Mul PropsX86Shift.
From Verif Require Import X86Shift Padding PaddingSpec PaddingProofs PaddingReduce PaddingTop PaddingMem.
Import ListNotations.
Local Open Scope Z_scope.

(* Vector masks.  A program is built from element-wise operators with any
   functions, unsigned division, comparisons, mask operators, element writes,
   where assignments and the library's own register algorithms that keep the
   padding apart.  Missing from the full claim: signed division (refuted below),
   per-lane shifts (C65), masked loads and stores (below), NEON reductions
   (C49). *)
Theorem C18_vector_masks_partial : forall s sel bitmask ve ve' me me', shape_ok s -> selects s sel ->
  same_values (lw s) (st s) (sn s) ve ve' -> same_masks (holds s) me me' ->
  (forall e, vx_ok (lw s) (st s) (sn s) e ->
    both (agree (sn s)) (v_eval (vec_mops s sel) bitmask (lw s) (sn s) (st s) ve me e)
                        (v_eval (vec_mops s sel) bitmask (lw s) (sn s) (st s) ve' me' e)) /\
  (forall e, mx_ok (lw s) (st s) (sn s) e ->
    both (fun k k' => (exists l, holds s k l /\ holds s k' l) /\ same_reductions s k k')
      (m_eval (vec_mops s sel) bitmask (lw s) (sn s) (st s) ve me e)
      (m_eval (vec_mops s sel) bitmask (lw s) (sn s) (st s) ve' me' e)).
Proof. exact c18_vector. Qed.
Print Assumptions C18_vector_masks_partial.

(* every blend the library uses selects whole elements *)
Theorem C18_blends : forall s g w, shape_ok s ->
  selects s sel_lane /\
  (lw s = Z.of_nat w -> (0 < g)%nat -> (w mod g = 0)%nat -> selects s (sel_bits g w)).
Proof. intros s g w Hs. split; [exact (sel_lane_selects s Hs)|intros; apply sel_bits_selects; auto]. Qed.
Print Assumptions C18_blends.

(* AVX-512 bit masks.  Missing: find_last_set (refuted below), and as above. *)
Theorem C18_bit_masks_partial : forall n w lanes ve ve' me me', size_ok n -> 0 < w -> (n <= lanes)%nat ->
  same_values w lanes n ve ve' -> same_masks (bits_hold n) me me' ->
  (forall e, vx_ok w lanes n e ->
    both (agree n) (v_eval (bit_mops n) true w n lanes ve me e) (v_eval (bit_mops n) true w n lanes ve' me' e)) /\
  (forall e, mx_ok w lanes n e ->
    both (fun k k' => (exists l, bits_hold n k l /\ bits_hold n k' l) /\ same_bit_reductions n k k')
      (m_eval (bit_mops n) true w n lanes ve me e) (m_eval (bit_mops n) true w n lanes ve' me' e)).
Proof. exact c18_bits. Qed.
Print Assumptions C18_bit_masks_partial.

(* register algorithms of the library that keep the padding apart: 8-bit
   multiplication and 8-bit shifts by one count *)
Theorem C18_algorithms : forall oob m n c, (n <= 4 * m)%nat -> 0 <= c < 32 ->
  padding_safe 8 (4 * m) n (mul8_avx512 oob) /\ padding_safe 8 (4 * m) n (mul8_sse41 oob) /\
  padding_safe 8 (4 * m) n (mul8_sse2 oob) /\ (forall signed, padding_safe 8 (4 * m) n (mul8_8 signed)) /\
  padding_safe 8 (4 * m) n (fun x _ => shl8_sse c x) /\ padding_safe 8 (4 * m) n (fun x _ => shl8_avx2 c x) /\
  padding_safe 8 (4 * m) n (fun x _ => shl8_avx512 c x) /\ padding_safe 8 (4 * m) n (fun x _ => shr8u oob c x).
Proof.
  intros oob m n c Hn Hc.
  assert (M : forall a b, 0 <= cpp_mul8 a b < 2 ^ 8) by (intros; apply Z.mod_pos_bound; reflexivity).
  assert (S : forall a, 0 <= a < 2 ^ 8 -> 0 <= cpp_shl 8 a c < 2 ^ 8) by (intros; apply Z.mod_pos_bound; reflexivity).
  assert (U : forall a, 0 <= a < 2 ^ 8 -> 0 <= cpp_shr_unsigned a c < 2 ^ 8).
  { intros a Ha. unfold cpp_shr_unsigned. assert (0 < 2 ^ c) by (apply Z.pow_pos_nonneg; lia).
    split; [apply Z.div_pos; lia|]. apply Z.div_lt_upper_bound; nia. }
  replace (4 * m)%nat with (2 * (2 * m))%nat in * by lia.
  split; [|split; [|split; [|split; [|split; [|split; [|split]]]]]].
  - apply (every_lane_safe 8 _ n cpp_mul8); [auto| |exact M]. intros x y Rx Ry. apply (C22_full_registers oob (2 * m) x y Rx Ry).
  - apply (every_lane_safe 8 _ n cpp_mul8); [auto| |exact M]. intros x y Rx Ry. apply (C22_full_registers oob (2 * m) x y Rx Ry).
  - apply (every_lane_safe 8 _ n cpp_mul8); [auto| |exact M]. intros x y Rx Ry. apply (C22_full_registers oob (2 * m) x y Rx Ry).
  - intros signed. apply (every_lane_safe 8 _ n cpp_mul8); [auto| |exact M]. intros x y Rx Ry.
    apply (C22_eight_bytes signed (2 * (2 * m)) x y Rx Ry).
  - apply (every_lane_by_safe 8 _ n (cpp_shl 8) c); auto. intros x Rx.
    apply (C24_shl8 oob c x m Hc). replace (4 * m)%nat with (2 * (2 * m))%nat by lia. auto.
  - apply (every_lane_by_safe 8 _ n (cpp_shl 8) c); auto. intros x Rx.
    apply (C24_shl8 oob c x m Hc). replace (4 * m)%nat with (2 * (2 * m))%nat by lia. auto.
  - apply (every_lane_by_safe 8 _ n (cpp_shl 8) c); auto. intros x Rx.
    apply (C24_shl8 oob c x m Hc). replace (4 * m)%nat with (2 * (2 * m))%nat by lia. auto.
  - apply (every_lane_by_safe 8 _ n cpp_shr_unsigned c); auto. intros x Rx.
    apply (C24_shr8_unsigned oob c x (2 * m) Hc Rx).
Qed.
Print Assumptions C18_algorithms.

(* reduce(x, op) for any operation op, also one that is neither associative nor
   commutative *)
Theorem C18_reduce : forall {A} I t op F o n (zero : A) x x', arch_ok I -> lanewise2 op F ->
  reg_type I t n (length x) -> length x' = length x -> firstn n x = firstn n x' ->
  simd_reduce I t zero F o n x = simd_reduce I t zero F o n x'.
Proof. intros A I t op F o n zero x x'. exact (simd_reduce_local I t op F o n zero x x'). Qed.
Print Assumptions C18_reduce.

(* copy_to: the memory is the same afterwards *)
Theorem C18_store : forall {U} x86 I u same (conv : Z -> U) n x x' (p : mem U), elem_ok u -> (1 <= n <= length x)%nat ->
  agree n x x' -> accessible p (fun j => (j <? n)%nat) ->
  exists q q', reg_store x86 I u same conv n x p = Some q /\ reg_store x86 I u same conv n x' p = Some q' /\
    forall j, q j = q' j.
Proof. intros U x86 I u same conv n x x' p. exact (agree_store x86 I u same conv n x x' p). Qed.
Print Assumptions C18_store.

(* where(k, x).copy_from(p) and where(k, x).copy_to(p), with registers and mask
   registers that differ in the padding.  Missing from the full claim: the ways
   that hand the mask register itself to the instruction need its padding to be
   clear (refuted otherwise, below). *)
Theorem C18_masked_load_partial : forall U kind (conv : U -> Z) n x x' k k' (p : mem U), (n <= 64)%nat -> (n <= length x)%nat ->
  agree n x x' -> (forall i, (i < n)%nat -> nth i k false = nth i k' false) ->
  (kind = MLAvx -> clean_mask n k /\ clean_mask n k') ->
  accessible p (fun j => (j <? n)%nat && nth j k false) ->
  exists r r', vec_masked_load kind conv n x k p = Some r /\ vec_masked_load kind conv n x' k' p = Some r' /\ agree n r r'.
Proof. exact @agree_masked_load. Qed.
Print Assumptions C18_masked_load_partial.

Theorem C18_masked_store_partial : forall U x86 I u kind (conv : Z -> U) n x x' k k' (p : mem U),
  elem_ok u -> (esize u <= 8)%nat -> (1 <= n <= 64)%nat -> (n <= length x)%nat -> (exists q, length x = 2 ^ q)%nat ->
  agree n x x' -> (forall i, (i < n)%nat -> nth i k false = nth i k' false) ->
  (kind = MSSame /\ x86 = true \/ kind = MSConvert -> clean_mask n k /\ clean_mask n k') ->
  accessible p (fun j => (j <? n)%nat && nth j k false) ->
  exists q q', vec_masked_store x86 I u kind conv n x k p = Some q /\ vec_masked_store x86 I u kind conv n x' k' p = Some q' /\
    forall j, q j = q' j.
Proof. exact @agree_masked_store. Qed.
Print Assumptions C18_masked_store_partial.

(* For every register with padding, whatever the target and element type: two
   masks without a true element and n accessible objects, where one mask makes
   the load (AVX maskload) and the store (x86, no conversion) undefined and the
   other loads and stores nothing. *)
Theorem C18_masked_memory_refuted : forall n x (I : isa) u, (n < length x)%nat -> exists k k' (p : mem Z),
  length k = length k' /\ (forall i, (i < n)%nat -> nth i k false = nth i k' false) /\
  accessible p (fun j => (j <? n)%nat) /\
  vec_masked_load MLAvx (fun v => v) n x k p = None /\ vec_masked_load MLAvx (fun v => v) n x k' p = Some x /\
  vec_masked_store true I u MSSame (fun v => v) n x k p = None /\
  (exists q, vec_masked_store true I u MSSame (fun v => v) n x k' p = Some q /\ forall j, q j = p j).
Proof. exact c18_masked_memory. Qed.
Print Assumptions C18_masked_memory_refuted.

(* three elements in four lanes; the padding of register and mask is different *)
Example C18_masked_nonvacuous :
  let x := [1; 2; 3; 4] in let x' := [1; 2; 3; 99] in
  let k := [true; false; true; true] in let k' := [true; false; true; false] in
  let p := fun j : nat => if (j =? 0)%nat || (j =? 2)%nat then Some (Z.of_nat j + 50) else None in
  agree 3 x x' /\ (forall i, (i < 3)%nat -> nth i k false = nth i k' false) /\
  accessible p (fun j => (j <? 3)%nat && nth j k false) /\
  vec_masked_load MLAvx512 (fun v => v) 3 x k p = Some [50; 2; 52; 4] /\
  vec_masked_load MLAvx512 (fun v => v) 3 x' k' p = Some [50; 2; 52; 99] /\
  (exists q, vec_masked_store true isa_avx2 (TInt 4) MSDecompose (fun v => v) 3 x k p = Some q /\
    map q (seq 0 4) = [Some 1; None; Some 3; None]) /\
  (3 < length x)%nat.
Proof.
  cbv zeta. split; [split; [reflexivity|intros i Hi; do 3 (destruct i as [|i]; [reflexivity|]); lia]|].
  split; [intros i Hi; do 3 (destruct i as [|i]; [reflexivity|]); lia|].
  split; [intros [|[|[|j]]] H; cbn in *; discriminate|].
  split; [reflexivity|]. split; [reflexivity|]. split; [eexists; split; reflexivity|cbn; lia].
Qed.

(* Signed division of a partial register: for every element width and number of
   elements there are two registers with the same elements of which one can be
   divided by 1 and the other cannot. *)
Theorem C18_signed_division_refuted : forall w n lanes, 1 < w -> (1 <= n < lanes)%nat ->
  exists x x' y, register w lanes x /\ register w lanes x' /\ register w lanes y /\ agree n x x' /\
    base_divides true false w n x y = None /\ base_divides true false w n x' y <> None.
Proof. exact c18_signed_division. Qed.
Print Assumptions C18_signed_division_refuted.

(* AVX-512: x != y and !(x == y) have the same elements (l: the lanes that are
   equal) but different find_last_set *)
Theorem C18_find_last_set_refuted : forall n l, size_ok n -> (n < kw n)%nat -> (n <= length l <= kw n)%nat ->
  any_true (map negb (firstn n l)) = true ->
  let k := k_int_not_equal n l in let k' := k_not n (k_compare n l) in
  bits_hold n k (map negb (firstn n l)) /\ bits_hold n k' (map negb (firstn n l)) /\
  k_find_last_set k <> k_find_last_set k'.
Proof. exact c18_find_last. Qed.
Print Assumptions C18_find_last_set_refuted.

(* three ints in 16 bytes; where(x < y, x) = x / y, and x < y; the padding of the
   divisor is 0 in one run *)
Definition i3 : shape := {| sz := 4; fp := false; st := 4; rl := 4; sn := 3 |}.
Definition run1 (j : nat) : list Z := if (j =? 0)%nat then [10; 3; 99; 7] else [20; 3; 100; 0].
Definition run2 (j : nat) : list Z := if (j =? 0)%nat then [10; 3; 99; 5] else [20; 3; 100; 77].
Definition prog : vx := VBlend (MCompare Z.ltb (VIn 0) (VIn 1)) (VIn 0) (VRemU (VIn 1) (VIn 0)).
Example C18_nonvacuous :
  shape_ok i3 /\ selects i3 (sel_bits 8 32) /\ same_values 32 4 3 run1 run2 /\ vx_ok 32 4 3 prog /\
  (forall me, v_eval (vec_mops i3 (sel_bits 8 32)) false 32 3 4 run1 me prog = Some [0; 3; 1; 7]) /\
  (forall me, v_eval (vec_mops i3 (sel_bits 8 32)) false 32 3 4 run2 me prog = Some [0; 3; 1; 77]) /\
  size_ok 3 /\ (3 < kw 3)%nat /\ any_true (map negb (firstn 3 [true; false; true; true])) = true.
Proof.
  assert (S : shape_ok i3).
  { unfold shape_ok, i3; cbn [sz fp st rl sn]. split; [auto|]. split; [auto|]. split; [lia|]. split; [lia|]. split; [lia|]. left. reflexivity. }
  split; [exact S|]. split; [apply sel_bits_selects; auto; lia|]. split.
  { intros j. unfold run1, run2. destruct (j =? 0)%nat; (split; [split; [reflexivity|repeat constructor; lia]|]);
      (split; [split; [reflexivity|repeat constructor; lia]|]); (split; [reflexivity|]);
      intros i Hi; do 3 (destruct i as [|i]; [reflexivity|]); lia. }
  split; [cbn; auto|]. split; [intros; vm_compute; reflexivity|]. split; [intros; vm_compute; reflexivity|].
  split; [split; lia|]. split; [vm_compute; lia|reflexivity].
Qed.
(* a subtraction, which is not associative, over 7 elements with different padding *)
Example C18_reduce_nonvacuous :
  reg_type isa_avx2 TFloat 7 (length [1; 2; 3; 4; 5; 6; 7; 99]) /\
  simd_reduce isa_avx2 TFloat 0 (Fz Z.sub) ROther 7 [1; 2; 3; 4; 5; 6; 7; 99]
  = simd_reduce isa_avx2 TFloat 0 (Fz Z.sub) ROther 7 [1; 2; 3; 4; 5; 6; 7; 0] /\
  simd_reduce isa_avx2 TFloat 0 (Fz Z.sub) ROther 7 [1; 2; 3; 4; 5; 6; 7; 99] <> None.
Proof. split; [right; split; [lia|split; [cbn; lia|reflexivity]]|]. split; [reflexivity|vm_compute; discriminate]. Qed.
