(* C63: reductions of masks on PowerPC. *)
From Coq Require Import List ZArith Bool Arith Lia.
From Verif Require Import Prelude MaskSpec BitMask KMask KMaskSpec X86Mask X86MaskSpec PpcMask PpcMaskSpec PpcMaskProofs.
Import ListNotations.
Local Open Scope Z_scope.

(* x holds the elements l; the lanes that are no elements hold anything *)
Theorem C63_all_any_none : forall s x l, ppc_ok s -> holds s x l ->
  base_all_of s x = all_true l /\ base_any_of s x = any_true l /\ base_none_of s x = negb (any_true l).
Proof. exact ppc_loops. Qed.
Print Assumptions C63_all_any_none.

Theorem C63_to_bits : forall s x l, ppc_ok s -> holds s x l ->
  0 <= ppc_to_bits s x < 2 ^ Z.of_nat (sn s) /\
  forall i, Z.testbit (ppc_to_bits s x) (Z.of_nat i) = nth i l false.
Proof. exact ppc_bits_spec. Qed.
Print Assumptions C63_to_bits.

Theorem C63_find_first_set : forall s x l, ppc_ok s -> holds s x l -> any_true l = true ->
  is_first_true l (ppc_find_first_set s x).
Proof. exact ppc_first_ok. Qed.
Print Assumptions C63_find_first_set.

Theorem C63_find_last_set : forall s x l, ppc_ok s -> holds s x l -> any_true l = true ->
  exists i, ppc_find_last_set s x = Z.of_nat i /\ is_last_true l i.
Proof. exact ppc_last_ok. Qed.
Print Assumptions C63_find_last_set.

(* popcount and some_of: when the other lanes are zero.  Some 0: Power10, where
   the intrinsic returns the count itself *)
Theorem C63_popcount_partial : forall p10 s x l, p10 = None \/ p10 = Some 0 -> ppc_ok s -> holds s x l -> clean s x ->
  ppc_popcount p10 s x = Z.of_nat (count_true l).
Proof. intros p10 s x l [->| ->]; [apply ppc_popcount_ok|apply ppc_power10_ok]. Qed.
Print Assumptions C63_popcount_partial.

Theorem C63_some_of_partial : forall p10 s x l, p10 = None \/ p10 = Some 0 -> ppc_ok s -> holds s x l -> clean s x ->
  ppc_some_of p10 s x = (any_true l && negb (all_true l))%bool.
Proof. intros p10 s x l H Hs Hh Hc. exact (ppc_some_ok p10 s x l Hs Hh Hc H). Qed.
Print Assumptions C63_some_of_partial.

(* full registers have no other lanes *)
Theorem C63_full_registers : forall s x l, ppc_ok s -> holds s x l -> sn s = st s ->
  ppc_popcount None s x = Z.of_nat (count_true l) /\ ppc_some_of None s x = (any_true l && negb (all_true l))%bool.
Proof.
  intros s x l Hs Hh Hf. split; [apply ppc_popcount_ok|apply ppc_some_ok]; auto using full_clean.
Qed.
Print Assumptions C63_full_registers.

(* popcount counts the other lanes too *)
Theorem C63_popcount_refuted : forall s l pad, ppc_ok s -> length l = sn s -> length pad = (st s - sn s)%nat ->
  holds s (map (mask_lane s) (l ++ pad)) l /\
  ppc_popcount None s (map (mask_lane s) (l ++ pad)) = Z.of_nat (count_true l + count_true pad).
Proof. exact ppc_popcount_wrong. Qed.
Print Assumptions C63_popcount_refuted.

(* some_of is true although no element is *)
Theorem C63_some_of_refuted : forall s l pad, ppc_ok s -> length l = sn s -> length pad = (st s - sn s)%nat ->
  any_true l = false -> any_true pad = true ->
  holds s (map (mask_lane s) (l ++ pad)) l /\ ppc_some_of None s (map (mask_lane s) (l ++ pad)) = true.
Proof. exact ppc_some_wrong. Qed.
Print Assumptions C63_some_of_refuted.

(* if the instruction leaves the count in the upper half of the register, the
   conversion to int drops it *)
Theorem C63_power10_refuted : forall p s x, 32 <= p -> ppc_popcount (Some p) s x = 0.
Proof. exact ppc_power10_high. Qed.
Print Assumptions C63_power10_refuted.

(* three floats in four lanes, eight short, two double *)
Definition ex63_f3 : shape := {| sz := 4; fp := true; st := 4; rl := 4; sn := 3 |}.
Definition ex63_s8 : shape := {| sz := 2; fp := false; st := 8; rl := 8; sn := 8 |}.
Definition ex63_d2 : shape := {| sz := 8; fp := true; st := 2; rl := 2; sn := 2 |}.
Definition ex63_s8_lanes : list Z := [0; 65535; 65535; 0; 0; 0; 65535; 0].
Definition ex63_s8_mask : list bool := [false; true; true; false; false; false; true; false].

Ltac lanes63 := let i := fresh "i" in let H := fresh "H" in intros i H; cbn in H;
  repeat (destruct i as [|i]; [vm_compute; split; congruence || reflexivity|try (exfalso; lia)]).
Ltac elems63 := let i := fresh "i" in let H := fresh "H" in intros i H; cbn in H;
  repeat (destruct i as [|i]; [vm_compute; reflexivity|try (exfalso; lia)]).
Example C63_partial_nonvacuous : ppc_ok ex63_f3 /\ clean ex63_f3 [0; 2 ^ 32 - 1; 0; 0] /\
  holds ex63_f3 [0; 2 ^ 32 - 1; 0; 0] [false; true; false] /\ holds ex63_f3 [0; 2 ^ 32 - 1; 0; 12345] [false; true; false].
Proof.
  unfold ppc_ok, clean, holds. split; [cbn; lia|]. split; [intros i Hi; cbn in Hi; replace i with 3%nat by lia; reflexivity|].
  split; (split; [auto|]; split; [auto|]; split; [elems63|lanes63]).
Qed.
Example C63_full_nonvacuous : ppc_ok ex63_s8 /\ sn ex63_s8 = st ex63_s8 /\ holds ex63_s8 ex63_s8_lanes ex63_s8_mask /\
  any_true ex63_s8_mask = true.
Proof. unfold ppc_ok, holds. split; [cbn; lia|]. split; [auto|]. split; [|auto]. split; [auto|]. split; [auto|]. split; [elems63|lanes63]. Qed.
Example C63_values : base_all_of ex63_s8 ex63_s8_lanes = false /\ ppc_to_bits ex63_s8 ex63_s8_lanes = 70 /\
  ppc_find_first_set ex63_s8 ex63_s8_lanes = 1%nat /\ ppc_find_last_set ex63_s8 ex63_s8_lanes = 6 /\
  ppc_popcount None ex63_s8 ex63_s8_lanes = 3 /\ ppc_popcount (Some 0) ex63_s8 ex63_s8_lanes = 3 /\
  ppc_some_of None ex63_s8 ex63_s8_lanes = true /\ ppc_popcount None ex63_d2 [0; 2 ^ 64 - 1] = 1.
Proof. vm_compute. repeat split. Qed.
(* x == x of three floats: all four lanes are ones; no element true: some_of *)
Example C63_wrong : ppc_popcount None ex63_f3 (repeat (2 ^ 32 - 1) 4) = 4 /\ ppc_some_of None ex63_f3 [0; 0; 0; 2 ^ 32 - 1] = true.
Proof. split; reflexivity. Qed.
