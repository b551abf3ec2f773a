(* Multiplication, division and remainder of small integer elements on x86
   (C22, C23).  A lane is the unsigned value of its representation; register and
   every_lane are in X86ShiftSpec. *)
From Coq Require Import ZArith List Bool Lia.
From Verif Require Import Prelude X86Lanes X86Bits X86ShiftSpec X86ShiftProofs X86ShiftVProofs PpcShiftProofs
  X86Mul X86MulProofs X86Div X86DivProofs.
Import ListNotations.
Open Scope Z_scope.

(* ===================== C22 ============================================ *)
(* the product of two 8-bit elements, converted back to 8 bits *)
Definition cpp_mul8 (x y : Z) : Z := (x * y) mod 2 ^ 8.
Ltac regs2 := repeat match goal with |- register _ _ _ => split; [reflexivity|]
  | |- Forall _ [] => constructor | |- Forall _ (_ :: _) => constructor; [lia|] end.

(* registers of 16, 32 and 64 bytes (m shorts): AVX-512BW, SSE4.1/AVX2, SSE2 *)
Theorem C22_full_registers : forall oob m x y, register 8 (2 * m) x -> register 8 (2 * m) y ->
  every_lane cpp_mul8 x y (mul8_avx512 oob x y) /\
  every_lane cpp_mul8 x y (mul8_sse41 oob x y) /\
  every_lane cpp_mul8 x y (mul8_sse2 oob x y).
Proof.
  intros oob m x y [Hl Hx] [Hm Hy]. destruct (mul8_general oob x y) as (H1 & H2 & H3); auto; try congruence.
  - exists m. auto.
  - rewrite H1, H2, H3. split; [|split]; (apply map2_every; [reflexivity|congruence]).
Qed.
Print Assumptions C22_full_registers.
(* 8-byte registers (the element-wise widening path), both signednesses *)
Theorem C22_eight_bytes : forall signed n x y, register 8 n x -> register 8 n y ->
  every_lane cpp_mul8 x y (mul8_8 signed x y).
Proof.
  intros s n x y [Hl Hx] [Hm Hy]. rewrite mul8_8_spec by (auto; congruence). apply map2_every; [reflexivity|congruence].
Qed.
Print Assumptions C22_eight_bytes.
(* two elements in one short; int multiplication may do anything on overflow *)
Theorem C22_two_elements : forall imul x y, imul_ok imul -> register 8 2 x -> register 8 2 y ->
  every_lane cpp_mul8 x y (mul8_2 imul x y).
Proof.
  intros imul x y Hi [Hl Hx] [Hm Hy]. rewrite mul8_2_spec by auto. apply map2_every; [reflexivity|congruence].
Qed.
Print Assumptions C22_two_elements.
(* three or four elements in one int.  Missing: the code multiplies the four
   bytes as one signed int, which overflows (undefined); only wrap-around gives
   the right bytes *)
Theorem C22_four_elements_partial : forall x y, register 8 4 x -> register 8 4 y ->
  every_lane cpp_mul8 x y (mul8_4 imul_wrap x y) /\
  forall i, (i < 3)%nat -> nth i (mul8_3 imul_wrap x y) 0 = cpp_mul8 (nth i x 0) (nth i y 0).
Proof.
  intros x y [Hl Hx] [Hm Hy]. rewrite mul8_4_spec by auto. split; [apply map2_every; [reflexivity|congruence]|].
  intros i Hi. apply mul8_3_spec; auto.
Qed.
Print Assumptions C22_four_elements_partial.
(* an int multiplication that is right whenever the product is an int, and
   operands for which both paths are wrong *)
Theorem C22_four_elements_refuted : exists imul x y,
  (forall a b, - 2 ^ 31 <= a * b < 2 ^ 31 -> imul a b = a * b) /\
  register 8 4 x /\ register 8 4 y /\
  ~ every_lane cpp_mul8 x y (mul8_4 imul x y) /\
  nth 0 (mul8_3 imul x y) 0 <> cpp_mul8 (nth 0 x 0) (nth 0 y 0).
Proof.
  exists (fun a b => if (- 2 ^ 31 <=? a * b) && (a * b <? 2 ^ 31) then a * b else 1), [0; 0; 16; 0], [0; 0; 128; 0].
  split; [|split; [|split; [|split]]].
  - intros a b H. destruct (Z.leb_spec (- 2 ^ 31) (a * b)), (Z.ltb_spec (a * b) (2 ^ 31)); try lia; auto.
  - regs2.
  - regs2.
  - intros [_ H]. specialize (H 0%nat ltac:(cbn; lia)). vm_compute in H. discriminate.
  - vm_compute. discriminate.
Qed.
Print Assumptions C22_four_elements_refuted.
Example C22_nonvacuous :
  register 8 4 [3; 200; 16; 255] /\ register 8 4 [5; 7; 16; 2] /\
  mul8_avx512 (fun _ _ _ => 77) [3; 200; 16; 255] [5; 7; 16; 2] = [15; 120; 0; 254] /\
  mul8_4 imul_wrap [3; 200; 16; 255] [5; 7; 16; 2] = [15; 120; 0; 254] /\ imul_ok imul_wrap.
Proof. split; [regs2|]. split; [regs2|]. split; [reflexivity|]. split; [reflexivity|apply imul_wrap_ok]. Qed.

(* ===================== C23 ============================================ *)
(* The number a lane stands for *)
Definition number (signed : bool) (w v : Z) : Z := if signed then sgn w v else v.
(* x / y and x % y are defined in C++: no division by zero, no overflow *)
Definition division_ok (signed : bool) (w x y : Z) : Prop :=
  y <> 0 /\ ~ (signed = true /\ x = 2 ^ (w - 1) /\ y = 2 ^ w - 1).
(* Division through float or double is exact: for every rounding mode (up), any
   element width and signedness, any register size and any number n of
   elements, each element is the quotient truncated towards zero.  Lanes behind
   the n elements may hold anything. *)
Theorem C23_division_exact : forall up signed bitmask w n regbytes lanes x y i,
  In w [8; 16; 32] -> In regbytes [16; 32; 64]%nat -> (1 <= n <= lanes)%nat ->
  register w lanes x -> register w lanes y ->
  (i < n)%nat -> division_ok signed w (nth i x 0) (nth i y 0) ->
  number signed w (nth i (x86_divides up signed bitmask w n regbytes x y) 0)
  = Z.quot (number signed w (nth i x 0)) (number signed w (nth i y 0)).
Proof. exact c23_division. Qed.
Print Assumptions C23_division_exact.
(* x % y for any multiplication that is right on the n elements (C22) *)
Theorem C23_remainder_exact : forall mul up signed bitmask w n regbytes lanes x y i,
  In w [8; 16; 32] -> In regbytes [16; 32; 64]%nat -> (1 <= n <= lanes)%nat ->
  (forall a b, register w lanes a -> register w lanes b -> length (mul a b) = lanes /\
     forall j, (j < n)%nat -> nth j (mul a b) 0 = (nth j a 0 * nth j b 0) mod 2 ^ w) ->
  register w lanes x -> register w lanes y -> (i < n)%nat -> nth i y 0 <> 0 ->
  number signed w (nth i (x86_modulus mul up signed bitmask w n regbytes x y) 0)
  = Z.rem (number signed w (nth i x 0)) (number signed w (nth i y 0)).
Proof. exact c23_remainder. Qed.
Print Assumptions C23_remainder_exact.
(* The divisor the division instructions see has no zero lane beyond those the
   user put into the n elements, whatever the padding lanes hold. *)
Theorem C23_padding_divisor_nonzero : forall bitmask w n lanes y i,
  In w [8; 16; 32] -> register w lanes y -> (n <= i < lanes)%nat ->
  nth i (make_padding_nonzero w bitmask n y) 0 <> 0.
Proof.
  intros bm w n lanes y i Hw [Hl Hy] Hi. apply nonzero_padding.
  - destruct Hw as [E|[E|[E|[]]]]; lia.
  - lia.
  - rewrite Forall_forall in Hy. apply Hy, nth_In. lia.
Qed.
Print Assumptions C23_padding_divisor_nonzero.
(* the rounding that goes up whenever the result is inexact; 3 of 4 lanes used,
   a zero divisor in the padding lane *)
Definition x23 := [2 ^ 32 - 7; 2 ^ 31 - 1; 5; 9].
Definition y23 := [2; 2 ^ 32 - 1; 3; 0].
Example C23_nonvacuous :
  In 32 [8; 16; 32] /\ In 16%nat [16; 32; 64]%nat /\ register 32 4 x23 /\ register 32 4 y23 /\
  (forall i, (i < 3)%nat -> division_ok true 32 (nth i x23 0) (nth i y23 0)) /\
  map (sgn 32) (firstn 3 (x86_divides (fun _ _ => true) true false 32 3 16 x23 y23)) = [-3; - (2 ^ 31 - 1); 1] /\
  map (sgn 32) (firstn 3 (x86_modulus (map2 (pmul 32)) (fun _ _ => true) true false 32 3 16 x23 y23)) = [-1; 0; 2] /\
  x86_divides (fun _ _ => true) false false 8 2 16 [254; 255] [255; 254] = [0; 1].
Proof.
  split; [cbn; auto|]. split; [cbn; auto|]. split; [unfold x23; regs2|]. split; [unfold y23; regs2|].
  split; [|split; [vm_compute; reflexivity|split; vm_compute; reflexivity]].
  intros [|[|[|i]]] Hi; try lia; split; vm_compute; try discriminate; intros [_ [H1 H2]]; discriminate.
Qed.
