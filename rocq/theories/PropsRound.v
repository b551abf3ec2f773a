(* C36: trunc, floor, ceil, round, nearbyint and rint return the correctly
   rounded integer for every finite element, and the argument itself for large
   numbers, infinities and NaN. *)
From Coq Require Import ZArith List Bool.
From Verif Require Import FloatSpec FloatRoundSpec FloatBits FloatArith FloatProofs FloatRound FloatRoundTop FloatSign.
Open Scope Z_scope.

(* f is binary32 or binary64 (float, double), t the target, md the rounding
   mode that is set when the function is called *)
Theorem C36_trunc : forall t f md x, f = binary32 \/ f = binary64 -> pattern f x ->
  integer_result (rounded_to ToZero) f (decode f x) (decode f (trunc_lane t f md x)).
Proof. exact c36_trunc. Qed.
Print Assumptions C36_trunc.
Theorem C36_floor : forall t f md x, f = binary32 \/ f = binary64 -> pattern f x ->
  integer_result (rounded_to Downward) f (decode f x) (decode f (floor_lane t f md x)).
Proof. exact c36_floor. Qed.
Print Assumptions C36_floor.
Theorem C36_ceil : forall t f md x, f = binary32 \/ f = binary64 -> pattern f x ->
  integer_result (rounded_to Upward) f (decode f x) (decode f (ceil_lane t f md x)).
Proof. exact c36_ceil. Qed.
Print Assumptions C36_ceil.
Theorem C36_round : forall arm t f md x, f = binary32 \/ f = binary64 -> pattern f x ->
  integer_result rounded_half_away f (decode f x) (decode f (round_lane arm t f md x)).
Proof. exact c36_round. Qed.
Print Assumptions C36_round.
(* nearbyint and rint follow the rounding mode *)
Theorem C36_nearbyint : forall generic t f md x, f = binary32 \/ f = binary64 -> pattern f x ->
  integer_result (rounded_to md) f (decode f x) (decode f (nearbyint_lane generic t f md x)).
Proof. exact c36_nearbyint. Qed.
Print Assumptions C36_nearbyint.

(* a negative number that truncates to zero gives -0, with the rounding
   instruction and (unless the mode is "downward") with the generic method *)
Theorem C36_trunc_sign : forall t f md x s m, f = binary32 \/ f = binary64 -> pattern f x ->
  decode f x = DFin s m ->
  t = RInstr \/ (md <> Downward /\ (t = ROther \/ f = binary64)) ->
  exists m', decode f (trunc_lane t f md x) = DFin s m'.
Proof. intros t f md x s m Hr Hx D H. eexists. exact (trunc_sign t f md x s m Hr Hx D H). Qed.
Print Assumptions C36_trunc_sign.

(* elsewhere the sign of a zero result is lost (C 7.12.9 and IEEE 754 6.3 ask
   for -0): trunc of floats with SSE2 or ARMv7 NEON, round with SSE4.1,
   nearbyint and rint of the generic implementation; and with the mode
   "downward" trunc of a positive fraction is -0 *)
Theorem C36_sign_of_zero_refuted :
  let x := 0xbe800000 in
  decode binary32 x = DFin true (2 ^ 147) /\
  decode binary32 (trunc_lane RSse2 binary32 ToNearest x) = DFin false 0 /\
  decode binary32 (trunc_lane RNeon32 binary32 ToNearest x) = DFin false 0 /\
  decode binary32 (round_lane false RInstr binary32 ToNearest x) = DFin false 0 /\
  decode binary32 (nearbyint_lane true RInstr binary32 ToNearest x) = DFin false 0 /\
  decode binary32 (trunc_lane ROther binary32 Downward 0x3e800000) = DFin true 0.
Proof. vm_compute. auto 10. Qed.
Print Assumptions C36_sign_of_zero_refuted.

(* 2.5, -2.5 and 8388607.5 (the last half below 2^23) *)
Example ex_values :
  decode binary32 0x40200000 = DFin false (5 * 2 ^ 148) /\ decode binary32 0xc0200000 = DFin true (5 * 2 ^ 148) /\
  decode binary32 0x4affffff = DFin false (16777215 * 2 ^ 148).
Proof. vm_compute. auto. Qed.
Example ex_all_targets : forall t,
  decode binary32 (trunc_lane t binary32 ToNearest 0xc0200000) = DFin true (2 ^ 150) /\
  decode binary32 (floor_lane t binary32 ToNearest 0xc0200000) = DFin true (3 * 2 ^ 149) /\
  decode binary32 (ceil_lane t binary32 ToNearest 0xc0200000) = DFin true (2 ^ 150) /\
  decode binary32 (round_lane false t binary32 ToNearest 0xc0200000) = DFin true (3 * 2 ^ 149) /\
  decode binary32 (nearbyint_lane false t binary32 ToNearest 0xc0200000) = DFin true (2 ^ 150) /\
  decode binary32 (nearbyint_lane true t binary32 Upward 0x4affffff) = DFin false (2 ^ 172).
Proof. intros t. destruct t; vm_compute; auto 10. Qed.
Example ex_double : decode binary64 (round_lane false ROther binary64 ToNearest 0x3fdfffffffffffff) = DFin false 0 /\
  decode binary64 (trunc_lane RSse2 binary64 Upward 0x4004000000000000) = DFin false (2 ^ 1075).
Proof. vm_compute. auto. Qed.
Example ex_special : forall t, trunc_lane t binary32 ToNearest 0x7f800000 = 0x7f800000 /\
  decode binary32 (floor_lane t binary32 ToNearest 0x7fc00001) = DNaN.
Proof. intros t. destruct t; vm_compute; auto. Qed.
