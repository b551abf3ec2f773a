(* C19, C20: integer division of whole registers *)
From Coq Require Import List ZArith Bool Arith Lia.
From Verif Require Import Prelude X86Lanes X86Bits X86ShiftSpec X86Div X86DivProofs IntDiv IntDivSpec IntDivProofs.
Import ListNotations.
Local Open Scope Z_scope.

(* ---- C19: x / y and x % y are defined when they are defined for every element *)
(* unsigned elements, any number n of elements in a register with any padding *)
Theorem C19_unsigned : forall bitmask w n lanes x y, 0 < w -> (n <= lanes)%nat ->
  register w lanes x -> register w lanes y -> (forall i, (i < n)%nat -> nth i y 0 <> 0) ->
  exists q r, base_divides false bitmask w n x y = Some q /\ base_modulus false bitmask w n x y = Some r /\
    forall i, (i < n)%nat -> nth i q 0 = nth i x 0 / nth i y 0 /\ nth i r 0 = nth i x 0 mod nth i y 0.
Proof. exact c19_unsigned. Qed.
Print Assumptions C19_unsigned.
(* registers without padding lanes, signed or unsigned *)
Theorem C19_full_register : forall signed bitmask w n x y, 0 < w ->
  register w n x -> register w n y -> (forall i, (i < n)%nat -> quotient_ok signed w (nth i x 0) (nth i y 0)) ->
  exists q r, base_divides signed bitmask w n x y = Some q /\ base_modulus signed bitmask w n x y = Some r /\
    forall i, (i < n)%nat ->
      number_of signed w (nth i q 0) = Z.quot (number_of signed w (nth i x 0)) (number_of signed w (nth i y 0)) /\
      number_of signed w (nth i r 0) = Z.rem (number_of signed w (nth i x 0)) (number_of signed w (nth i y 0)).
Proof. exact c19_full. Qed.
Print Assumptions C19_full_register.
(* Missing from the full claim: signed elements in a partial register whose
   padding lanes hold the smallest number (see C19_broadcast_refuted). *)
Theorem C19_signed_partial : forall bitmask w n lanes x y, 0 < w -> (n <= lanes)%nat ->
  register w lanes x -> register w lanes y ->
  (forall i, (i < n)%nat -> quotient_ok true w (nth i x 0) (nth i y 0)) ->
  (forall i, (n <= i < lanes)%nat -> nth i x 0 <> 2 ^ (w - 1)) ->
  exists q r, base_divides true bitmask w n x y = Some q /\ base_modulus true bitmask w n x y = Some r /\
    forall i, (i < n)%nat ->
      sgn w (nth i q 0) = Z.quot (sgn w (nth i x 0)) (sgn w (nth i y 0)) /\
      sgn w (nth i r 0) = Z.rem (sgn w (nth i x 0)) (sgn w (nth i y 0)).
Proof. exact c19_signed. Qed.
Print Assumptions C19_signed_partial.
(* simd<T>(INT_MIN) / simd<T>(1) in every partial register of the vector-mask
   ABI; in the AVX-512 ABI when the divisor was a broadcast -1 whose elements were
   all set to 1.  Each element's quotient is defined, the register's is not. *)
Theorem C19_broadcast_refuted : forall w n lanes, 1 < w -> (n < lanes)%nat ->
  let x := broadcast lanes (2 ^ (w - 1)) in
  let y := broadcast lanes 1 in
  let y' := fold_left (fun v j => set_lane v j 1) (seq 0 n) (broadcast lanes (2 ^ w - 1)) in
  (forall i, (i < n)%nat -> quotient_ok true w (nth i x 0) (nth i y 0) /\ nth i y' 0 = 1) /\
  base_divides true false w n x y = None /\ base_modulus true false w n x y = None /\
  base_divides true true w n x y' = None /\ base_modulus true true w n x y' = None.
Proof. exact c19_broadcast. Qed.
Print Assumptions C19_broadcast_refuted.
(* three 64-bit elements, the padding of the divisor 0 *)
Example C19_nonvacuous :
  register 64 4 [100; 2 ^ 64 - 7; 5; 0] /\ register 64 4 [7; 2; 2 ^ 64 - 1; 0] /\
  (forall i, (i < 3)%nat -> quotient_ok true 64 (nth i [100; 2 ^ 64 - 7; 5; 0] 0) (nth i [7; 2; 2 ^ 64 - 1; 0] 0)) /\
  base_divides true false 64 3 [100; 2 ^ 64 - 7; 5; 0] [7; 2; 2 ^ 64 - 1; 0] = Some [14; 2 ^ 64 - 3; 2 ^ 64 - 5; 0] /\
  base_modulus false true 64 3 [100; 9; 5; 0] [7; 2; 8; 0] = Some [2; 1; 5; 0].
Proof.
  split; [|split; [|split; [|split]]]; try reflexivity.
  - split; [reflexivity|]. repeat constructor; try lia; reflexivity.
  - split; [reflexivity|]. repeat constructor; try lia; reflexivity.
  - intros i Hi. destruct i as [|[|[|i]]]; try lia; (split; [discriminate|]);
      intros (_ & H & _); vm_compute in H; discriminate.
Qed.

(* ---- C20: where(k, x) /= y and where(k, x) %= y *)
(* scalar ABI *)
Theorem C20_scalar : forall signed w k x y, (k = true -> quotient_ok signed w x y) ->
  scalar_masked_cassign (lane_div signed w) signed w k x y = Some (if k then lane_div signed w x y else x) /\
  scalar_masked_cassign (lane_rem signed w) signed w k x y = Some (if k then lane_rem signed w x y else x).
Proof. exact c20_scalar. Qed.
Print Assumptions C20_scalar.
(* x86, elements of at most 4 bytes, any optimiser knowledge that is right: the
   divisor of an unselected element may be zero; mul: _S_multiplies (C22) *)
Theorem C20_x86_small : forall mul up signed bitmask w n regbytes lanes kn k x y,
  In w [8; 16; 32] -> In regbytes [16; 32; 64]%nat -> (1 <= n <= lanes)%nat ->
  (forall a b, register w lanes a -> register w lanes b -> length (mul a b) = lanes /\
     forall j, (j < n)%nat -> nth j (mul a b) 0 = (nth j a 0 * nth j b 0) mod 2 ^ w) ->
  register w lanes x -> register w lanes y -> length k = lanes -> knows kn n k ->
  (forall i, (i < n)%nat -> nth i k false = true -> quotient_ok signed w (nth i x 0) (nth i y 0)) ->
  exists q r, x86_masked_divides up signed bitmask w n regbytes kn k x y = Some q /\
    x86_masked_modulus mul up signed bitmask w n regbytes kn k x y = Some r /\
    forall i, (i < n)%nat -> if nth i k false
      then number_of signed w (nth i q 0) = Z.quot (number_of signed w (nth i x 0)) (number_of signed w (nth i y 0)) /\
           number_of signed w (nth i r 0) = Z.rem (number_of signed w (nth i x 0)) (number_of signed w (nth i y 0))
      else nth i q 0 = nth i x 0 /\ nth i r 0 = nth i x 0.
Proof. exact c20_x86. Qed.
Print Assumptions C20_x86_small.
(* Every other integer type and target.  Missing from the full claim: only the
   selected elements should need a defined quotient. *)
Theorem C20_generic_partial : forall signed bitmask w n lanes kn k x y, 0 < w -> (n <= lanes)%nat ->
  register w lanes x -> register w lanes y -> length k = lanes -> knows kn n k ->
  (forall i, (i < n)%nat -> quotient_ok signed w (nth i x 0) (nth i y 0)) ->
  (forall i, (n <= i < lanes)%nat -> signed = true -> nth i x 0 <> 2 ^ (w - 1)) ->
  exists q r, masked_cassign (base_divides signed bitmask w n) kn k x y = Some q /\
    masked_cassign (base_modulus signed bitmask w n) kn k x y = Some r /\
    forall i, (i < n)%nat -> if nth i k false
      then number_of signed w (nth i q 0) = Z.quot (number_of signed w (nth i x 0)) (number_of signed w (nth i y 0)) /\
           number_of signed w (nth i r 0) = Z.rem (number_of signed w (nth i x 0)) (number_of signed w (nth i y 0))
      else nth i q 0 = nth i x 0 /\ nth i r 0 = nth i x 0.
Proof. exact c20_generic. Qed.
Print Assumptions C20_generic_partial.
(* where(y != 0, x) /= y: undefined as soon as one element of y is zero, unless
   the optimiser knows that the mask selects nothing *)
Theorem C20_unselected_refuted : forall signed bitmask w n lanes x y i, 0 < w -> (i < n <= lanes)%nat ->
  register w lanes x -> register w lanes y -> nth i y 0 = 0 ->
  let k := map (fun v => negb (v =? 0)) y in
  nth i k false = false /\
  masked_cassign (base_divides signed bitmask w n) Unknown k x y = None /\
  masked_cassign (base_modulus signed bitmask w n) Unknown k x y = None.
Proof. exact c20_unselected. Qed.
Print Assumptions C20_unselected_refuted.
Example C20_nonvacuous :
  x86_masked_divides (fun _ _ => false) true false 32 4 16 Unknown [true; false; true; false]
    [2 ^ 32 - 9; 5; 8; 6] [2; 0; 3; 0] = Some [2 ^ 32 - 4; 5; 2; 6] /\
  x86_masked_modulus (map2 (fun a b => (a * b) mod 2 ^ 32)) (fun _ _ => false) true false 32 4 16 Unknown
    [true; false; true; false] [2 ^ 32 - 9; 5; 8; 6] [2; 0; 3; 0] = Some [2 ^ 32 - 1; 5; 2; 6] /\
  knows Unknown 4 [true; false; true; false] /\
  masked_cassign (base_modulus true false 64 2) Unknown [true; false] [2 ^ 64 - 9; 5] [2; 1] = Some [2 ^ 64 - 1; 5] /\
  masked_cassign (base_divides true false 64 2) Unknown [true; false] [9; 5] [2; 0] = None.
Proof. repeat split; reflexivity. Qed.
