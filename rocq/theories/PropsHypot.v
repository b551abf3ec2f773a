(* C55: hypot with two and with three arguments. *)
From Coq Require Import ZArith List Bool Lia.
From Verif Require Import X86Lanes FloatSpec FloatRoundSpec FloatBits FloatArith FloatProofs FloatTop HypotSpec Hypot HypotTop HypotNearest PropsFloat PropsMath.
Import ListNotations.
Open Scope Z_scope.

(* f is float or double, t are the instructions (isnormal exists for t: C33), md
   is the rounding mode, x and y are the elements of the vectors, c says how the
   compiler contracts the sum of squares.  hypot_result and the meaning of the
   bounds 5 and 2 are in HypotSpec.v *)
Theorem C55_hypot : forall c t f md x y, f = binary32 \/ f = binary64 -> target_ok t /\ dq_ok t ->
  Forall (pattern f) x -> Forall (pattern f) y -> length x = length y ->
  exists r, hypot_reg c t f md x y = Some r /\ length r = length x /\
    forall i a b, nth_error x i = Some a -> nth_error y i = Some b ->
      exists v, nth_error r i = Some v /\ hypot_result f md 5 2 [decode f a; decode f b] (decode f v).
Proof. exact c55_hypot. Qed.
Print Assumptions C55_hypot.
(* the arguments may be exchanged, and the result of an element does not depend
   on the other elements, although those decide about the path taken *)
Theorem C55_symmetric : forall c t f md x y, f = binary32 \/ f = binary64 -> target_ok t /\ dq_ok t ->
  Forall (pattern f) x -> Forall (pattern f) y -> length x = length y ->
  hypot_reg c t f md x y = hypot_reg c t f md y x.
Proof. exact c55_symmetric. Qed.
Print Assumptions C55_symmetric.
Theorem C55_independent : forall c t f md x y x' y' r r' i j, f = binary32 \/ f = binary64 -> target_ok t /\ dq_ok t ->
  Forall (pattern f) x -> Forall (pattern f) y -> length x = length y ->
  Forall (pattern f) x' -> Forall (pattern f) y' -> length x' = length y' ->
  hypot_reg c t f md x y = Some r -> hypot_reg c t f md x' y' = Some r' ->
  nth_error x i = nth_error x' j -> nth_error y i = nth_error y' j -> nth_error r i = nth_error r' j.
Proof. exact c55_independent. Qed.
Print Assumptions C55_independent.
(* hypot(a, +-0) is |a| exactly *)
Theorem C55_zero : forall c t f md x y, f = binary32 \/ f = binary64 -> target_ok t /\ dq_ok t ->
  Forall (pattern f) x -> Forall (pattern f) y -> length x = length y ->
  forall i a b s m s', nth_error x i = Some a -> nth_error y i = Some b -> decode f a = DFin s m -> decode f b = DFin s' 0 ->
    exists r v, hypot_reg c t f md x y = Some r /\ nth_error r i = Some v /\ pattern f v /\ decode f v = DFin false m.
Proof. exact c55_zero. Qed.
Print Assumptions C55_zero.
(* three arguments *)
Theorem C55_hypot3 : forall c fused t f md x y z, f = binary32 \/ f = binary64 -> target_ok t /\ dq_ok t ->
  Forall (pattern f) x -> Forall (pattern f) y -> Forall (pattern f) z -> length x = length y -> length y = length z ->
  exists r, hypot3_reg c fused t f md x y z = Some r /\ length r = length x /\
    forall i a b d, nth_error x i = Some a -> nth_error y i = Some b -> nth_error z i = Some d ->
      exists v, nth_error r i = Some v /\ hypot_result f md 6 3 [decode f a; decode f b; decode f d] (decode f v).
Proof. exact c55_hypot3. Qed.
Print Assumptions C55_hypot3.

(* with rounding to nearest the other elements do not matter either ... *)
Theorem C55_independent3_partial : forall c fused t f x y z x' y' z' r r' i j, f = binary32 \/ f = binary64 -> target_ok t /\ dq_ok t ->
  Forall (pattern f) x -> Forall (pattern f) y -> Forall (pattern f) z ->
  Forall (pattern f) x' -> Forall (pattern f) y' -> Forall (pattern f) z' ->
  hypot3_reg c fused t f ToNearest x y z = Some r -> hypot3_reg c fused t f ToNearest x' y' z' = Some r' ->
  nth_error x i = nth_error x' j -> nth_error y i = nth_error y' j -> nth_error z i = nth_error z' j -> nth_error r i = nth_error r' j.
Proof. exact c55_independent3. Qed.
Print Assumptions C55_independent3_partial.
(* ... but with rounding down they do: 1 + 2^-23 beside two small numbers gives
   1 if the other element is 1, and 1 + 2^-23 if the other element is zero *)
Theorem C55_independent3_refuted :
  ~ (forall c fused t f md x y z x' y' z' r r' i j, f = binary32 \/ f = binary64 -> target_ok t /\ dq_ok t ->
  Forall (pattern f) x -> Forall (pattern f) y -> Forall (pattern f) z ->
  Forall (pattern f) x' -> Forall (pattern f) y' -> Forall (pattern f) z' ->
  hypot3_reg c fused t f md x y z = Some r -> hypot3_reg c fused t f md x' y' z' = Some r' ->
  nth_error x i = nth_error x' j -> nth_error y i = nth_error y' j -> nth_error z i = nth_error z' j -> nth_error r i = nth_error r' j).
Proof.
  intros H. specialize (H Separate false sse4_target binary32 Downward
    [0x3f800001; 0x3f800000] [0x00800000; 0x3f800000] [0x00800000; 0x3f800000]
    [0x3f800001; 0] [0x00800000; 0x3f800000] [0x00800000; 0x3f800000]
    [0x3f800000; 0x3fddb3d7] [0x3f800001; 0x3fb504f3] 0%nat 0%nat).
  assert (E : nth_error [0x3f800000; 0x3fddb3d7] 0%nat = nth_error [0x3f800001; 0x3fb504f3] 0%nat); [|discriminate E].
  apply H; [left; reflexivity|destruct ex_hypotheses as (T & D & _); auto|..|reflexivity|reflexivity|reflexivity];
    try (repeat constructor; cbn; lia); vm_compute; reflexivity.
Qed.
Print Assumptions C55_independent3_refuted.

(* a target and vectors to which the theorems apply: 3 and 4; then an infinity
   beside a NaN, the smallest subnormal numbers, and large numbers whose squares
   overflow; then a hypotenuse that overflows *)
Example ex_hypot_hyp : target_ok sse4_target /\ dq_ok sse4_target /\
  Forall (pattern binary32) [0x40400000; 0x7fc00000; 3; 0x7e967699; 0x7f7fffff] /\ Forall (pattern binary32) [0xc0800000; 0xff800000; 4; 0x7ec8f4cc; 0x7f7fffff].
Proof.
  destruct ex_hypotheses as (T & D & _). split; auto. split; auto. split; repeat constructor; cbn; lia.
Qed.
Example ex_hypot :
  hypot_reg Separate sse4_target binary32 ToNearest [0x40400000; 0x40400000] [0xc0800000; 0x40800000] = Some [0x40a00000; 0x40a00000] /\
  hypot_reg FuseFirst sse4_target binary32 ToNearest [0x40400000; 0x7fc00000; 3; 0x7e967699; 0x7f7fffff] [0xc0800000; 0xff800000; 4; 0x7ec8f4cc; 0x7f7fffff]
    = Some [0x40a00000; 0x7f800000; 5; 0x7efb0b04; 0x7f800000].
Proof. vm_compute. auto. Qed.
Example ex_hypot3 :
  hypot3_reg FuseSecond true sse4_target binary32 ToNearest [0x3f800000; 1] [0x40000000; 2] [0xc0000000; 2] = Some [0x40400000; 3].
Proof. vm_compute. auto. Qed.
