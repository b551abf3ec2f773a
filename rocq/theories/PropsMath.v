(* C34: frexp; C35: logb; C37: copysign, abs, signbit, modf. *)
From Coq Require Import ZArith List Bool Lia.
From Verif Require Import X86Lanes FloatSpec FloatRoundSpec FloatMathSpec FloatBits FloatArith FloatProofs FloatRound
  FloatTop FloatMath FloatMathProofs FloatMathTop PropsFloat.
Import ListNotations.
Open Scope Z_scope.

(* f is float or double, avx says that the target has AVX512F, t are the other
   instructions (isnormal exists for t: C33), md is the rounding mode, xs the
   elements.  frexp_result, logb_result and modf_result are in FloatMathSpec.v *)
Theorem C34_frexp : forall avx t f md xs, f = binary32 \/ f = binary64 ->
  (avx = false -> target_ok t /\ dq_ok t) -> Forall (pattern f) xs ->
  exists rs, frexp_reg avx t f md xs = Some rs /\ length rs = length xs /\
    forall i x, nth_error xs i = Some x -> exists y e, nth_error rs i = Some (y, e) /\
      frexp_result f (decode f x) (decode f y) e /\
      (match decode f x with DFin _ m => m = 0 | _ => True end -> y = x).
Proof. exact c34_frexp. Qed.
Print Assumptions C34_frexp.
(* equal elements in any two vectors at any two places have the same result *)
Theorem C34_independent : forall avx t f md xs ys rs ss i j, f = binary32 \/ f = binary64 ->
  Forall (pattern f) xs -> Forall (pattern f) ys ->
  frexp_reg avx t f md xs = Some rs -> frexp_reg avx t f md ys = Some ss ->
  nth_error xs i = nth_error ys j -> nth_error rs i = nth_error ss j.
Proof. exact c34_independent. Qed.
Print Assumptions C34_independent.

Theorem C35_logb : forall instr t f md xs, f = binary32 \/ f = binary64 ->
  (instr = false -> target_ok t /\ dq_ok t) -> Forall (pattern f) xs ->
  exists rs, logb_reg instr t f md xs = Some rs /\ length rs = length xs /\
    forall i x, nth_error xs i = Some x -> exists y, nth_error rs i = Some y /\ logb_result f (decode f x) (decode f y).
Proof. exact c35_logb. Qed.
Print Assumptions C35_logb.
Theorem C35_independent : forall instr t f md xs ys rs ss i j, f = binary32 \/ f = binary64 ->
  Forall (pattern f) xs -> Forall (pattern f) ys ->
  logb_reg instr t f md xs = Some rs -> logb_reg instr t f md ys = Some ss ->
  nth_error xs i = nth_error ys j -> nth_error rs i = nth_error ss j.
Proof. exact c35_independent. Qed.
Print Assumptions C35_independent.

(* the lower fw - 1 bits are those of x, the sign bit that of y *)
Theorem C37_copysign : forall f xs ys, fmt_ok f -> Forall (pattern f) xs -> Forall (pattern f) ys -> length xs = length ys ->
  length (copysign_reg f xs ys) = length xs /\
  forall i x y, nth_error xs i = Some x -> nth_error ys i = Some y ->
    exists r, nth_error (copysign_reg f xs ys) i = Some r /\ pattern f r /\
      r mod 2 ^ (fw f - 1) = x mod 2 ^ (fw f - 1) /\ sign_of f r = sign_of f y.
Proof. exact c37_copysign. Qed.
Print Assumptions C37_copysign.
Theorem C37_abs : forall f xs, fmt_ok f -> abs_reg f xs = map (fun x => x mod 2 ^ (fw f - 1)) xs.
Proof. exact c37_abs. Qed.
Print Assumptions C37_abs.
Theorem C37_signbit : forall t f x, fmt_ok f -> pattern f x -> signbit_lane t f x = sign_of f x.
Proof. intros t f x Hf. exact (signbit_ok f Hf t x). Qed.
Print Assumptions C37_signbit.
(* the parts of modf add up to x, the fraction has the sign of x, and so has an
   integral part other than zero *)
Theorem C37_modf : forall t rt f md xs, f = binary32 \/ f = binary64 -> Forall (pattern f) xs ->
  length (fst (modf_reg t rt f md xs)) = length xs /\ length (snd (modf_reg t rt f md xs)) = length xs /\
  forall i x, nth_error xs i = Some x ->
    exists fr it, nth_error (fst (modf_reg t rt f md xs)) i = Some fr /\ nth_error (snd (modf_reg t rt f md xs)) i = Some it /\
      modf_result false f (decode f x) (decode f fr) (decode f it).
Proof. intros t rt f md xs Hr HX. apply c37_modf; auto. discriminate. Qed.
Print Assumptions C37_modf.
(* the integral part too if trunc keeps the sign of a zero (C36_trunc_sign).
   Missing: the other targets, where it does not *)
Theorem C37_modf_sign_partial : forall t rt f md xs, f = binary32 \/ f = binary64 -> Forall (pattern f) xs ->
  rt = RInstr \/ (md <> Downward /\ (rt = ROther \/ f = binary64)) ->
  forall i x, nth_error xs i = Some x ->
    exists fr it, nth_error (fst (modf_reg t rt f md xs)) i = Some fr /\ nth_error (snd (modf_reg t rt f md xs)) i = Some it /\
      modf_result true f (decode f x) (decode f fr) (decode f it).
Proof. intros t rt f md xs Hr HX H. apply c37_modf; auto. Qed.
Print Assumptions C37_modf_sign_partial.
(* -0.25f: the integral part is +0 with SSE2 and with ARMv7 NEON; 0.25 with the
   rounding mode "downward" and generic code: it is -0 *)
Theorem C37_modf_sign_refuted : forall t,
  decode binary32 0xbe800000 = DFin true (2 ^ 147) /\
  (let p := modf_lane t RSse2 binary32 ToNearest 0xbe800000 in p = (0xbe800000, 0)) /\
  (let p := modf_lane t RNeon32 binary32 ToNearest 0xbe800000 in p = (0xbe800000, 0)) /\
  (let p := modf_lane t ROther binary64 Downward 0x3fd0000000000000 in p = (0x3fd0000000000000, 0x8000000000000000)).
Proof.
  intros t. split; [reflexivity|]. unfold modf_lane.
  rewrite !(isinf_decode binary32 ok32), (isinf_decode binary64 ok64) by (split; vm_compute; congruence).
  vm_compute. auto.
Qed.
Print Assumptions C37_modf_sign_refuted.

(* ------------------------------------------------------------------ *)
Definition sse4_target := {| t_x86 := true; t_avx := false; t_dq := false; t_vl := false; t_a512 := false; t_bytes := 16; t_snan := false |}.
Definition samples := [0x40490fdb; 0x80000001; 0x80000000; 0xff800000; 0x7fc00000; 0x807fffff].
Example ex_hypotheses : target_ok sse4_target /\ dq_ok sse4_target /\ target_ok skx_target /\ dq_ok skx_target /\ Forall (pattern binary32) samples.
Proof.
  unfold target_ok, dq_ok, sse4_target, skx_target. simpl. repeat split; auto; try discriminate; try (intros; congruence).
  unfold samples. repeat constructor; cbn; lia.
Qed.
(* pi, the smallest negative subnormal, -0, -inf, NaN, the largest negative
   subnormal *)
Example ex_frexp :
  frexp_reg false sse4_target binary32 ToNearest samples =
    Some [(0x3f490fdb, 2); (0xbf000000, -148); (0x80000000, 0); (0xff800000, 255); (0x7fc00000, 255); (0xbf7ffffe, -126)] /\
  frexp_reg true skx_target binary32 ToNearest samples =
    Some [(0x3f490fdb, 2); (0xbf000000, -148); (0x80000000, 0); (0xff800000, 0); (0x7fc00000, 0); (0xbf7ffffe, -126)] /\
  frexp_reg false sse4_target binary32 ToNearest [0x40490fdb] = Some [(0x3f490fdb, 2)] /\
  frexp_reg false sse4_target binary64 ToNearest [1; 0x3ff8000000000000] = Some [(0x3fe0000000000000, -1073); (0x3fe8000000000000, 1)].
Proof. vm_compute. auto. Qed.
Example ex_logb :
  logb_reg false sse4_target binary32 ToNearest samples =
    Some [0x3f800000; 0xc3150000; 0xff800000; 0x7f800000; 0x7fc00000; 0xc2fe0000] /\
  logb_reg true skx_target binary32 ToNearest samples =
    Some [0x3f800000; 0xc3150000; 0xff800000; 0x7f800000; 0x7fc00000; 0xc2fe0000] /\
  logb_reg false sse4_target binary32 ToNearest [0x40490fdb; 0xbf000000] = Some [0x3f800000; 0xbf800000].
Proof. vm_compute. auto. Qed.
Example ex_sign :
  copysign_reg binary32 [0x7fc00000; 0xbf800000] [0x80000000; 0x7f800000] = [0xffc00000; 0x3f800000] /\
  abs_reg binary32 [0x80000000; 0xffffffff] = [0; 0x7fffffff] /\
  modf_reg sse4_target RInstr binary32 ToNearest [0xc0200000; 0xff800000; 0xbe800000] =
    ([0xbf000000; 0x80000000; 0xbe800000], [0xc0000000; 0xff800000; 0x80000000]).
Proof. vm_compute. auto. Qed.
