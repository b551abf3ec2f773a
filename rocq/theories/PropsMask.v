(* Properties of fixed_size masks.  Vocabulary: MaskSpec.v. *)
From Coq Require Import List ZArith Bool Arith.
From Verif Require Import Prelude MaskSpec BitMask BitMaskProofs.
Import ListNotations.

(* C09: every program over fixed_size masks computes, element by element, what
   the same program computes on N independent bools. *)
Theorem C09_fixed_mask_algebra : forall n e,
  1 <= n -> n <= 64 -> mexpr_ok n e ->
  bm_list n (fsm_eval n e) = mask_meaning n e.
Proof. exact c09_lemma. Qed.
Print Assumptions C09_fixed_mask_algebra.

Definition c09_prog : mexpr :=
  EAssign (EBitset [true; false; true; false; false; true; true; true; false])
          (ENot (ESet (EBroadcast true) 8 false))
          (EEq (EGen Nat.even) (EXor (EBroadcast true) (EGen (fun i => Nat.ltb i 3)))).
Example C09_nonvacuous :
  mexpr_ok 9 c09_prog /\
  mask_meaning 9 c09_prog
  = [false; false; false; false; false; false; true; false; true].
Proof. split; [repeat split; auto with arith|reflexivity]. Qed.

(* C09 for the underlying bit mask at every width, including masks of several
   words (N > 64). *)
Theorem C09_bitmask_any_width : forall n,
  1 <= n -> forall a b i x, bm_clean n a -> bm_clean n b -> i < n ->
  bm_list n (bm_and a b) = map2 andb (bm_list n a) (bm_list n b) /\
  bm_list n (bm_or a b) = map2 orb (bm_list n a) (bm_list n b) /\
  bm_list n (bm_xor a b) = map2 xorb (bm_list n a) (bm_list n b) /\
  bm_list n (bm_not n true a) = map negb (bm_list n a) /\
  bm_list n (bm_set n a i x) = upd (bm_list n a) i x /\
  bm_list n (fsm_broadcast n x) = repeat x n /\
  bm_clean n (bm_and a b) /\ bm_clean n (bm_or a b) /\ bm_clean n (bm_xor a b) /\
  bm_clean n (bm_not n true a) /\ bm_clean n (bm_set n a i x) /\
  bm_clean n (fsm_broadcast n x).
Proof. exact c09_wide_lemma. Qed.
Print Assumptions C09_bitmask_any_width.

Example C09_wide_nonvacuous :
  bm_clean 70 [18446744073709551615; 63]%Z /\ bm_clean 70 [1; 32]%Z.
Proof.
  split; (split; [split; [reflexivity|repeat constructor; vm_compute; congruence]|]);
    intros i Hi; change (bm_array_size 70 * bm_word_bits 70) with 128 in Hi;
    do 70 (destruct i; [exfalso; destruct Hi; repeat (apply le_S_n in H); inversion H|]);
    do 58 (destruct i; [reflexivity|]);
    exfalso; destruct Hi as [_ Hi]; do 128 apply le_S_n in Hi; inversion Hi.
Qed.

(* C10: reductions of every mask a program can compute. *)
Theorem C10_fixed_mask_reductions : forall n e,
  1 <= n -> n <= 64 -> mexpr_ok n e ->
  let m := mask_meaning n e in
  let k := fsm_eval n e in
  fsm_all_of n k = all_true m /\
  fsm_any_of n k = any_true m /\
  fsm_none_of n k = negb (any_true m) /\
  fsm_some_of n k = (any_true m && negb (all_true m))%bool /\
  fsm_popcount n k = count_true m /\
  (any_true m = true ->
     is_first_true m (fsm_find_first_set k) /\
     exists i, fsm_find_last_set k = Z.of_nat i /\ is_last_true m i).
Proof. exact c10_lemma. Qed.
Print Assumptions C10_fixed_mask_reductions.

Example C10_nonvacuous :
  any_true (mask_meaning 9 c09_prog) = true /\
  fsm_find_first_set (fsm_eval 9 c09_prog) = 6 /\
  fsm_find_last_set (fsm_eval 9 c09_prog) = 8%Z /\
  fsm_popcount 9 (fsm_eval 9 c09_prog) = 2.
Proof. repeat split; reflexivity. Qed.

(* C10 for the underlying bit mask at every width, sanitized or not: the bits
   above N never matter. *)
Theorem C10_bitmask_any_width : forall n san b,
  1 <= n -> bm_wf n b -> (san = true -> bm_clean n b) ->
  bm_all n san b = all_true (bm_list n b) /\
  bm_any n san b = any_true (bm_list n b) /\
  bm_none n san b = negb (any_true (bm_list n b)).
Proof. exact c10_wide_lemma. Qed.
Print Assumptions C10_bitmask_any_width.

Example C10_wide_nonvacuous :
  bm_wf 4 [243]%Z /\ bm_all 4 false [243]%Z = false /\ bm_all 4 false [255]%Z = true /\
  bm_any 4 false [240]%Z = false.
Proof. repeat split; try reflexivity. repeat constructor; vm_compute; congruence. Qed.

(* C15, fixed_size representation. *)
Theorem C15_fixed_mask_bitset : forall n, 1 <= n -> n <= 64 ->
  (forall l, length l = n -> fsm_to_bitset n (fsm_from_bitset n l) = l) /\
  (forall e, mexpr_ok n e ->
     fsm_to_bitset n (fsm_eval n e) = mask_meaning n e /\
     fsm_from_bitset n (fsm_to_bitset n (fsm_eval n e)) = fsm_eval n e).
Proof. exact c15_fixed_lemma. Qed.
Print Assumptions C15_fixed_mask_bitset.

Example C15_nonvacuous :
  fsm_to_bitset 3 (fsm_from_bitset 3 [true; false; true]) = [true; false; true] /\
  fsm_from_bitset 3 [true; false; true] = [5%Z].
Proof. split; reflexivity. Qed.

(* C39: both loops visit exactly the indices of the true elements, once each
   and in increasing order, and terminate. *)
Theorem C39_bit_iteration : forall n e fuel,
  1 <= n -> n <= 64 -> mexpr_ok n e -> n <= fuel ->
  bit_iteration fuel (bm_to_ullong (fsm_eval n e)) = Some (true_indices (mask_meaning n e)) /\
  where_range fuel (bm_to_ullong (fsm_eval n e))
    = Some (map Some (true_indices (mask_meaning n e))).
Proof. exact c39_lemma. Qed.
Print Assumptions C39_bit_iteration.

Example C39_nonvacuous : true_indices (mask_meaning 9 c09_prog) = [6; 8].
Proof. reflexivity. Qed.

(* C45: the count of a sanitized mask is right at every width ... *)
Theorem C45_count_partial : forall n b, 1 <= n -> bm_clean n b ->
  bm_count n true b = count_true (bm_list n b).
Proof. exact c45_partial_lemma. Qed.
Print Assumptions C45_count_partial.

(* ... but count() of an unsanitized mask is not the number of true elements *)
Theorem C45_count_unsanitized_refuted :
  exists n b, 1 <= n /\ bm_wf n b /\ bm_count n false b <> count_true (bm_list n b).
Proof. exact c45_refuted_lemma. Qed.
Print Assumptions C45_count_unsanitized_refuted.

Example C45_values :
  bm_count 4 false [5]%Z = 0 /\ bm_count 4 false [0]%Z = 1 /\ bm_count 4 true [5]%Z = 2.
Proof. repeat split; reflexivity. Qed.

(* C46: iterating where(k) evaluates __builtin_ctzl on 0 for every mask (the
   constructor of end() does). *)
Theorem C46_where_range_ctz0_refuted : forall fuel bits, In 0%Z (wr_ctz_args fuel bits).
Proof. exact c46_refuted_lemma. Qed.
Print Assumptions C46_where_range_ctz0_refuted.
