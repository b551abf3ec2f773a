(* C49: reductions of masks on ARM. *)
From Coq Require Import List ZArith Bool Arith Lia.
From Verif Require Import Prelude MaskSpec BitMask KMask KMaskSpec X86Mask X86MaskSpec Neon NeonSpec NeonProofs NeonBits.
Import ListNotations.
Local Open Scope Z_scope.

(* x holds the elements l; the lanes that are no elements hold anything *)
Theorem C49_all_of : forall s x l, neon_ok s -> holds s x l -> neon_all_of s x = Some (all_true l).
Proof. exact neon_all_ok. Qed.
Print Assumptions C49_all_of.

Theorem C49_none_of : forall s x l, neon_ok s -> holds s x l -> neon_none_of s x = negb (any_true l).
Proof. exact neon_none_ok. Qed.
Print Assumptions C49_none_of.

Theorem C49_to_bits : forall a64 s x l, neon_ok s -> holds s x l ->
  0 <= neon_to_bits a64 s x < 2 ^ Z.of_nat (sn s) /\
  forall i, Z.testbit (neon_to_bits a64 s x) (Z.of_nat i) = nth i l false.
Proof. exact neon_bits_spec. Qed.
Print Assumptions C49_to_bits.

Theorem C49_find_first_set : forall a64 s x l, neon_ok s -> holds s x l -> any_true l = true ->
  is_first_true l (neon_find_first_set a64 s x).
Proof. exact neon_first_ok. Qed.
Print Assumptions C49_find_first_set.

Theorem C49_find_last_set : forall a64 s x l, neon_ok s -> holds s x l -> any_true l = true ->
  exists i, neon_find_last_set a64 s x = Z.of_nat i /\ is_last_true l i.
Proof. exact neon_last_ok. Qed.
Print Assumptions C49_find_last_set.

(* any_of, some_of and popcount: full registers only *)
Theorem C49_any_of_partial : forall s x l, neon_ok s -> holds s x l -> full s -> neon_any_of s x = any_true l.
Proof. exact neon_any_full. Qed.
Print Assumptions C49_any_of_partial.

Theorem C49_some_of_partial : forall a64 s x l, neon_ok s -> holds s x l -> full s -> (nbytes s <> 2)%nat ->
  sz s <> 8%nat \/ a64 = true -> neon_some_of a64 s x = Some (any_true l && negb (all_true l))%bool.
Proof. exact neon_some_ok. Qed.
Print Assumptions C49_some_of_partial.

Theorem C49_popcount_partial : forall a64 s x l, neon_ok s -> holds s x l -> full s -> (8 <= nbytes s)%nat ->
  sz s <> 8%nat \/ a64 = true -> neon_popcount a64 s x = Some (Z.of_nat (count_true l)).
Proof. exact neon_popcount_full. Qed.
Print Assumptions C49_popcount_partial.

(* any_of of a partial register is true whatever the mask holds *)
Theorem C49_any_of_refuted : forall s x l, neon_ok s -> holds s x l -> ~ full s -> neon_any_of s x = true.
Proof. exact neon_any_partial. Qed.
Print Assumptions C49_any_of_refuted.

(* some_of: partial registers of at most eight bytes; two elements of one byte *)
Theorem C49_some_of_refuted :
  (forall a64 s x l, neon_ok s -> holds s x l -> ~ full s -> (nbytes s <= 8)%nat ->
     neon_some_of a64 s x = Some (negb (all_true l))) /\
  (forall a64 s x l, neon_ok s -> holds s x l -> nbytes s = 2%nat ->
     neon_some_of a64 s x = Some (any_true l)).
Proof. exact neon_some_wrong. Qed.
Print Assumptions C49_some_of_refuted.

(* popcount: the other lanes are counted; less than eight bytes are read out of
   bounds; 64-bit elements of ARMv7 are counted as twice the first *)
Theorem C49_popcount_refuted :
  (forall a64 s l pad, neon_ok s -> length l = sn s -> length pad = (st s - sn s)%nat -> (8 <= nbytes s)%nat -> sz s <> 8%nat ->
     holds s (map (lane_of_bool s) (l ++ pad)) l /\
     neon_popcount a64 s (map (lane_of_bool s) (l ++ pad)) = Some (Z.of_nat (count_true l + count_true pad))) /\
  (forall a64 s x, neon_ok s -> (nbytes s < 8)%nat -> neon_popcount a64 s x = None) /\
  (forall s x l, neon_ok s -> holds s x l -> sz s = 8%nat ->
     neon_popcount false s x = Some (if nth 0 l false then 2 else 0)).
Proof. exact neon_popcount_wrong. Qed.
Print Assumptions C49_popcount_refuted.

(* three floats, stray bits in the last lane *)
Definition ex_f3 : shape := {| sz := 4; fp := true; st := 4; rl := 4; sn := 3 |}.
Definition ex_s8 : shape := {| sz := 2; fp := false; st := 8; rl := 8; sn := 8 |}.
Definition ex_c5 : shape := {| sz := 1; fp := false; st := 8; rl := 8; sn := 5 |}.
Definition ex_c2 : shape := {| sz := 1; fp := false; st := 2; rl := 2; sn := 2 |}.
Definition ex_l2 : shape := {| sz := 8; fp := false; st := 2; rl := 2; sn := 2 |}.
Definition ex_f3_lanes : list Z := [0; 2 ^ 32 - 1; 0; 12345].
Definition ex_s8_lanes : list Z := [0; 65535; 65535; 0; 0; 0; 65535; 0].
Definition ex_s8_mask : list bool := [false; true; true; false; false; false; true; false].

Ltac lanes_ := let i := fresh "i" in let H := fresh "H" in intros i H; cbn in H;
  repeat (destruct i as [|i]; [vm_compute; split; congruence || reflexivity|try (exfalso; lia)]).
Ltac elems_ := let i := fresh "i" in let H := fresh "H" in intros i H; cbn in H;
  repeat (destruct i as [|i]; [vm_compute; reflexivity|try (exfalso; lia)]).
Example C49_partial_nonvacuous : neon_ok ex_f3 /\ ~ full ex_f3 /\ holds ex_f3 ex_f3_lanes [false; true; false].
Proof. unfold neon_ok, full, holds, nbytes. split; [cbn; lia|]. split; [cbn; lia|]. split; [auto|]. split; [auto|]. split; [elems_|lanes_]. Qed.
Example C49_full_nonvacuous : neon_ok ex_s8 /\ full ex_s8 /\ (8 <= nbytes ex_s8)%nat /\ (nbytes ex_s8 <> 2)%nat /\ sz ex_s8 <> 8%nat /\
  holds ex_s8 ex_s8_lanes ex_s8_mask /\ any_true ex_s8_mask = true.
Proof. unfold neon_ok, full, holds, nbytes. split; [cbn; lia|]. split; [cbn; lia|]. split; [cbn; lia|]. split; [cbn; lia|]. split; [cbn; lia|].
  split; [|auto]. split; [auto|]. split; [auto|]. split; [elems_|lanes_]. Qed.
Example C49_values : neon_all_of ex_s8 ex_s8_lanes = Some false /\ neon_to_bits true ex_s8 ex_s8_lanes = 70 /\
  neon_to_bits false ex_s8 ex_s8_lanes = 70 /\ neon_find_first_set false ex_s8 ex_s8_lanes = 1%nat /\
  neon_find_last_set true ex_s8 ex_s8_lanes = 6 /\ neon_popcount true ex_s8 ex_s8_lanes = Some 3 /\
  neon_some_of true ex_s8 ex_s8_lanes = Some true.
Proof. vm_compute. repeat split. Qed.
(* the wrong answers are reached: no element is true *)
Example C49_any_of_wrong : neon_any_of ex_f3 [0; 0; 0; 0] = true.
Proof. reflexivity. Qed.
Example C49_some_of_wrong : neon_some_of true ex_c5 (repeat 0 8) = Some true /\ neon_some_of true ex_c2 [255; 255] = Some true.
Proof. split; reflexivity. Qed.
(* x == x of three floats on ARM: all four lanes are ones *)
Example C49_popcount_wrong : neon_popcount true ex_f3 (repeat (2 ^ 32 - 1) 4) = Some 4 /\
  neon_popcount true ex_c2 [255; 0] = None /\ neon_popcount false ex_l2 [0; 2 ^ 64 - 1] = Some 0.
Proof. repeat split; reflexivity. Qed.
