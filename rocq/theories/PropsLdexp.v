(* C58: ldexp. *)
From Coq Require Import ZArith List Bool Lia.
From Verif Require Import Prelude X86Lanes FloatSpec FloatRoundSpec FloatBits FloatArith FloatRound FloatRoundTop FloatMathSpec FloatTop FloatMath FloatArithProofs FloatMathTop Ldexp LdexpSpec LdexpProofs LdexpTop.
Import ListNotations.
Local Open Scope Z_scope.

(* every element is x * 2^e, rounded once, for every int e; lanes beyond the elements are zero *)
Theorem C58_ldexp : forall f md n xs es, real_fmt f -> Forall (pattern f) xs -> length es = length xs -> (n <= length xs)%nat ->
  Forall (fun e => - 2 ^ 31 <= e < 2 ^ 31) es ->
  length (ldexp_reg f md n xs es) = length xs /\
  forall i x e, nth_error xs i = Some x -> nth_error es i = Some e ->
    exists y, nth_error (ldexp_reg f md n xs es) i = Some y /\ pattern f y /\
      ((i < n)%nat -> ldexp_result f md (decode f x) e (decode f y)) /\ ((n <= i)%nat -> y = 0).
Proof. exact ldexp_reg_ok. Qed.
Print Assumptions C58_ldexp.

(* a result that is a number of the type is returned exactly, in every rounding mode *)
Theorem C58_exact : forall f md x e s m n, real_fmt f -> pattern f x -> - 2 ^ 31 <= e < 2 ^ 31 ->
  decode f x = DFin s m -> finite_number f n -> m * 2 ^ Z.max e 0 = n * 2 ^ Z.max (- e) 0 ->
  decode f (ldexp_lane f md x e) = DFin s n.
Proof. exact ldexp_exact. Qed.
Print Assumptions C58_exact.

(* y = frexp(x, &e); ldexp(y, e) is x, bit for bit except for NaNs, whatever the two
   rounding modes and the target of frexp *)
Theorem C58_frexp : forall avx t f md md' n xs, real_fmt f -> (avx = false -> target_ok t /\ dq_ok t) -> Forall (pattern f) xs -> (n <= length xs)%nat ->
  exists rs, frexp_reg avx t f md xs = Some rs /\
    forall i x, (i < n)%nat -> nth_error xs i = Some x ->
      exists y, nth_error (ldexp_reg f md' n (map fst rs) (map snd rs)) i = Some y /\ decode f y = decode f x /\ (decode f x <> DNaN -> y = x).
Proof. exact frexp_ldexp_core. Qed.
Print Assumptions C58_frexp.

(* a correctly rounded result is unique, so that C58_ldexp fixes the result *)
Theorem C58_unique : forall f md s v u y z, fmt_ok f -> 0 <= v -> 0 < u ->
  correctly_rounded f md s v u y -> correctly_rounded f md s v u z -> y = z.
Proof. exact rounded_unique. Qed.
Print Assumptions C58_unique.

Example ex_ldexp :
  let xs := [1065353216 (* 1 *); 1 (* the smallest number *); 2139095039 (* the largest *); 2147483648 (* -0 *); 1082130433] in
  let es := [-149; 148; 1; 2 ^ 20; -151] in
  real_fmt binary32 /\ Forall (pattern binary32) xs /\ length es = length xs /\ Forall (fun e => - 2 ^ 31 <= e < 2 ^ 31) es /\
  ldexp_reg binary32 ToNearest 4 xs es = [1; 1056964608 (* 1/2 *); 2139095040 (* infinity *); 2147483648; 0] /\
  ldexp_reg binary32 Upward 5 xs es = [1; 1056964608; 2139095040; 2147483648; 2].
Proof.
  cbv zeta. split; [left; reflexivity|]. split; [repeat constructor; vm_compute; congruence|]. split; [reflexivity|].
  split; [repeat constructor; vm_compute; congruence|]. split; vm_compute; reflexivity.
Qed.
Example ex_exact : pattern binary32 3212836865 /\ decode binary32 3212836865 = DFin true (8388609 * 2 ^ 126) /\ finite_number binary32 8388609 /\
  ldexp_lane binary32 Upward 3212836865 (-126) = 2155872257.
Proof.
  split; [vm_compute; split; congruence|]. split; [vm_compute; reflexivity|]. split; [|vm_compute; reflexivity].
  exists 8388609. vm_compute. repeat split; congruence.
Qed.
Definition plain := {| t_x86 := true; t_avx := true; t_dq := false; t_vl := false; t_a512 := false; t_bytes := 16; t_snan := false |}.
Example ex_frexp : target_ok plain /\ dq_ok plain /\
  frexp_reg false plain binary32 ToNearest [1; 2147483649; 1092616192] = Some [(1056964608, -148); (3204448256, -148); (1059061760, 4)] /\
  ldexp_reg binary32 Downward 2 [1056964608; 3204448256; 1059061760] [-148; -148; 4] = [1; 2147483649; 0].
Proof. split; [vm_compute; intuition congruence|]. split; [vm_compute; intuition congruence|]. split; vm_compute; reflexivity. Qed.
Example ex_unique : correctly_rounded binary32 ToNearest true 3 4 (DFin true 1).
Proof.
  cbn [correctly_rounded direction_of]. split; [reflexivity|]. exists 1. split; [vm_compute; repeat split; congruence|].
  split; [reflexivity|]. intros n _. split; [lia|]. lia.
Qed.
