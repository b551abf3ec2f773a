(* C57: where(mask, v) = y, op= y, ++, --, - change the selected elements and no others.
   Vocabulary: WhereSpec.v (register, replaced, means, where_shape, style_ok, number,
   no_overflow, result_of), X86MaskSpec.v (holds, shape_ok), FloatSpec.v (pattern). *)
From Coq Require Import ZArith Bool Lia Arith List.
From Verif Require Import Prelude Fixed MaskSpec BitMask KMask KMaskSpec X86Lanes ScalarSpec Scalar FloatRoundTop FloatSpec FloatBits FloatArith X86Mask X86MaskSpec Where WhereSpec WhereProofs WhereTop.
Import ListNotations.
Local Open Scope Z_scope.

(* where(k, v) = w, for every kind of mask, every way to blend, and whatever the
   compiler knows about the operands *)
Theorem C57_assign : forall y c s k l lhs rhs,
  where_shape s -> style_ok y s -> means s k l -> register s lhs -> register s rhs ->
  replaced (sn s) l lhs rhs (masked_assign y c s k lhs rhs).
Proof. exact assign_core. Qed.
Print Assumptions C57_assign.

(* where(k, v) = scalar *)
Theorem C57_assign_int : forall y c sg s k l lhs v,
  where_shape s -> style_ok y s -> means s k l -> register s lhs -> 0 <= v < 2 ^ (8 * Z.of_nat (sz s)) ->
  replaced (sn s) l lhs (repeat v (sn s)) (masked_assign_scalar y c (EInt sg) s k lhs v).
Proof. exact assign_scalar_int. Qed.
Print Assumptions C57_assign_int.
(* Missing: the constant -0.0, see C57_minus_zero_refuted *)
Theorem C57_assign_float_partial : forall y c f s k l lhs v,
  real_fmt f -> fw f = 8 * Z.of_nat (sz s) ->
  where_shape s -> style_ok y s -> means s k l -> register s lhs -> pattern f v ->
  (kn_rhs c = true -> v <> 2 ^ (fw f - 1)) ->
  replaced (sn s) l lhs (repeat v (sn s)) (masked_assign_scalar y c (EFloat f) s k lhs v).
Proof. exact assign_scalar_float. Qed.
Print Assumptions C57_assign_float_partial.
(* where(k, v) = -0.0 stores +0 in the selected elements if the compiler knows the
   right-hand side and does not know the mask *)
Theorem C57_minus_zero_refuted : forall y c f s k l lhs,
  real_fmt f -> fw f = 8 * Z.of_nat (sz s) ->
  where_shape s -> style_ok y s -> means s k l -> register s lhs ->
  kn_mask c = false -> kn_rhs c = true ->
  forall i, (i < sn s)%nat -> nth i l false = true ->
    nth i (masked_assign_scalar y c (EFloat f) s k lhs (2 ^ (fw f - 1))) 0 = 0.
Proof. exact assign_minus_zero. Qed.
Print Assumptions C57_minus_zero_refuted.

(* where(k, v) op= w of integers, op on numbers.  Missing: that only the selected
   elements matter for overflow of signed integers, see C57_unselected_refuted *)
Theorem C57_int_compound_partial : forall op y c s sg k l lhs rhs,
  where_shape s -> style_ok y s -> means s k l -> register s lhs -> register s rhs ->
  let w := 8 * Z.of_nat (sz s) in
  let result i := op (number sg w (nth i lhs 0)) (number sg w (nth i rhs 0)) in
  (forall i, (i < st s)%nat -> no_overflow sg w (result i)) ->
  exists r, masked_cassign (lanewise2 (int_lane2 op sg w)) y c s k lhs rhs = Some r /\
    forall i, (i < sn s)%nat ->
      if nth i l false then result_of sg w (result i) (nth i r 0) else nth i r 0 = nth i lhs 0.
Proof. exact int_compound. Qed.
Print Assumptions C57_int_compound_partial.
Theorem C57_int_unary_partial : forall u y c s sg k l v,
  where_shape s -> style_ok y s -> means s k l -> register s v ->
  let w := 8 * Z.of_nat (sz s) in
  let n i := number sg w (nth i v 0) in
  let result i := match u with UNegate => - n i | UIncrement => n i + 1 | UDecrement => n i - 1 end in
  (forall i, (i < st s)%nat -> no_overflow sg w (result i)) ->
  exists r, masked_unary (lanewise1 (int_lane1 u sg w)) y c s k v = Some r /\
    forall i, (i < sn s)%nat ->
      if nth i l false then result_of sg w (result i) (nth i r 0) else nth i r 0 = nth i v 0.
Proof. exact int_unary. Qed.
Print Assumptions C57_int_unary_partial.
(* for unsigned integers nothing is missing *)
Theorem C57_unsigned : forall op y c s k l lhs rhs,
  where_shape s -> style_ok y s -> means s k l -> register s lhs -> register s rhs ->
  exists r, masked_cassign (lanewise2 (int_lane2 op false (8 * Z.of_nat (sz s)))) y c s k lhs rhs = Some r /\
    replaced (sn s) l lhs (map (fun p => op (fst p) (snd p) mod 2 ^ (8 * Z.of_nat (sz s))) (combine lhs rhs)) r.
Proof. exact unsigned_compound. Qed.
Print Assumptions C57_unsigned.
(* an element that is not selected and would overflow makes the expression undefined,
   although no selected element overflows *)
Theorem C57_unselected_refuted : forall u y c s k l j,
  where_shape s -> means s k l -> kn_mask c = false -> (j < sn s)%nat -> nth j l false = false ->
  let w := 8 * Z.of_nat (sz s) in
  exists v, register s v /\
    (forall i, (i < sn s)%nat -> nth i l false = true ->
       let n := number true w (nth i v 0) in
       no_overflow true w (match u with UNegate => - n | UIncrement => n + 1 | UDecrement => n - 1 end)) /\
    masked_unary (lanewise1 (int_lane1 u true w)) y c s k v = None.
Proof. exact unselected_overflow. Qed.
Print Assumptions C57_unselected_refuted.

(* floating point *)
Theorem C57_float_compound : forall op f md y c s k l lhs rhs,
  real_fmt f -> fw f = 8 * Z.of_nat (sz s) -> In op [fadd; fsub; fmul] ->
  where_shape s -> style_ok y s -> means s k l -> register s lhs -> register s rhs ->
  exists r, masked_cassign (lanewise2 (float_lane2 op f md)) y c s k lhs rhs = Some r /\
    forall i, (i < sn s)%nat -> nth i r 0 = if nth i l false then op f md (nth i lhs 0) (nth i rhs 0) else nth i lhs 0.
Proof. exact float_compound. Qed.
Print Assumptions C57_float_compound.
Theorem C57_float_unary : forall u f md y c s k l v,
  real_fmt f -> fw f = 8 * Z.of_nat (sz s) ->
  where_shape s -> style_ok y s -> means s k l -> register s v ->
  exists r, masked_unary (lanewise1 (float_lane1 u f md)) y c s k v = Some r /\
    forall i, (i < sn s)%nat -> nth i r 0 =
      if nth i l false then match u with
                            | UNegate => fneg f (nth i v 0)
                            | UIncrement => fadd f md (nth i v 0) (one_bits f)
                            | UDecrement => fsub f md (nth i v 0) (one_bits f)
                            end
      else nth i v 0.
Proof. exact float_unary. Qed.
Print Assumptions C57_float_unary.

(* where(k, v) op= scalar *)
Theorem C57_compound_scalar : forall op y c s k l lhs x,
  where_shape s -> style_ok y s -> means s k l -> register s lhs -> 0 <= x < 2 ^ (8 * Z.of_nat (sz s)) ->
  exists r, masked_cassign_scalar (lanewise2 (int_lane2 op false (8 * Z.of_nat (sz s)))) y c s k lhs x = Some r /\
    replaced (sn s) l lhs (map (fun a => op a x mod 2 ^ (8 * Z.of_nat (sz s))) lhs) r.
Proof. exact scalar_compound. Qed.
Print Assumptions C57_compound_scalar.
Theorem C57_compound_scalar_float : forall op f md y c s k l lhs x,
  real_fmt f -> fw f = 8 * Z.of_nat (sz s) -> In op [fadd; fsub; fmul] ->
  where_shape s -> style_ok y s -> means s k l -> register s lhs -> pattern f x ->
  exists r, masked_cassign_scalar (lanewise2 (float_lane2 op f md)) y c s k lhs x = Some r /\
    replaced (sn s) l lhs (map (fun a => op f md a x) lhs) r.
Proof. exact scalar_compound_float. Qed.
Print Assumptions C57_compound_scalar_float.

(* the scalar ABI and where(bool, v): nothing is computed unless selected *)
Theorem C57_scalar : forall t k x z, std_type t -> isg t = false -> has t x -> has t z ->
  scalar_masked_assign k x z = (if k then z else x) /\
  scalar_masked_cassign (s_plus t) k x z = Some (if k then (x + z) mod 2 ^ iw t else x) /\
  scalar_masked_cassign (s_minus t) k x z = Some (if k then (x - z) mod 2 ^ iw t else x) /\
  scalar_masked_cassign (s_multiplies t) k x z = Some (if k then (x * z) mod 2 ^ iw t else x) /\
  (k = false \/ z <> 0 ->
    scalar_masked_cassign (s_divides t) k x z = Some (if k then x / z else x) /\
    scalar_masked_cassign (s_modulus t) k x z = Some (if k then x mod z else x)) /\
  (forall u, scalar_masked_unary (scalar_unary u t) k x =
    Some (if k then match u with UNegate => - x | UIncrement => x + 1 | UDecrement => x - 1 end mod 2 ^ iw t else x)).
Proof. exact scalar_where. Qed.
Print Assumptions C57_scalar.
Theorem C57_scalar_signed : forall t k x z, std_type t -> isg t = true -> has t x -> has t z ->
  let fits v := - 2 ^ (Z.max 32 (iw t) - 1) <= v < 2 ^ (Z.max 32 (iw t) - 1) in
  let ok v r := (k = false -> r = Some x) /\ (k = true -> fits v -> exists w, r = Some w /\ wraps_to t v w) in
  ok (x + z) (scalar_masked_cassign (s_plus t) k x z) /\ ok (x - z) (scalar_masked_cassign (s_minus t) k x z) /\
  ok (x * z) (scalar_masked_cassign (s_multiplies t) k x z).
Proof. exact scalar_signed. Qed.
Print Assumptions C57_scalar_signed.

(* masks: where(k, m) = m2 and where(k, m) = bool.  The padding lanes keep the form
   that the other operations on masks rely on (means) *)
Theorem C57_mask_assign : forall y cst s k a b l la lb,
  where_shape s -> style_ok y s ->
  means s k l -> means s a la -> means s b lb -> same_kind k a -> same_kind k b ->
  exists r lr, mask_masked_assign y cst s k a b = Some r /\ same_kind k r /\ means s r lr /\
    forall i, (i < sn s)%nat -> nth i lr false = if nth i l false then nth i lb false else nth i la false.
Proof. exact mask_assign. Qed.
Print Assumptions C57_mask_assign.
Theorem C57_mask_assign_bool : forall y c cst s k a l la x,
  where_shape s -> style_ok y s -> means s k l -> means s a la -> same_kind k a ->
  exists r lr, mask_masked_assign_bool y c cst s k a x = Some r /\ same_kind k r /\ means s r lr /\
    forall i, (i < sn s)%nat -> nth i lr false = if nth i l false then x else nth i la false.
Proof. exact mask_assign_bool. Qed.
Print Assumptions C57_mask_assign_bool.

(* operators that compile: all on simd objects, all but the shifts through where *)
Theorem C57_operators_partial : forall o, o <> WShiftLeft -> o <> WShiftRight -> compiles where_member o = true.
Proof. exact members_ok. Qed.
Print Assumptions C57_operators_partial.
Theorem C57_plain_operators : forall o, compiles plain_member o = true.
Proof. exact plain_members_ok. Qed.
Print Assumptions C57_plain_operators.
Theorem C57_shifts_refuted : compiles where_member WShiftLeft = false /\ compiles where_member WShiftRight = false.
Proof. exact members_bad. Qed.
Print Assumptions C57_shifts_refuted.

Example ex_scalar : let t := {| iw := 32; isg := true |} in std_type t /\ has t (2 ^ 31 - 1) /\
  scalar_masked_cassign (s_plus t) false (2 ^ 31 - 1) 1 = Some (2 ^ 31 - 1) /\ scalar_masked_cassign (s_plus t) true 5 1 = Some 6.
Proof. split; [right; right; left; auto|]. split; [cbn; lia|]. split; reflexivity. Qed.
(* four floats in an SSE register, three of them elements (fixed-size parts and
   __deduced ABIs have such registers); element 1 is selected *)
Definition four := {| sz := 4; fp := true; st := 4; rl := 4; sn := 3 |}.
Definition km := [0; ones four; 0; 77].
Definition unknown := {| kn_mask := false; kn_rhs := false; kn_blend := false |}.
Definition known_rhs := {| kn_mask := false; kn_rhs := true; kn_blend := false |}.
Definition one32 := 1065353216.
Example ex_where : where_shape four /\ style_ok (Signs 32) four /\ means four (VMask km) [false; true; false] /\
  register four [1; 2; 3; 4] /\ fw binary32 = 8 * Z.of_nat (sz four) /\
  masked_assign (Signs 32) unknown four (VMask km) [1; 2; 3; 4] [5; 6; 7; 8] = [1; 6; 3; 4] /\
  masked_assign Conditional unknown four (VMask km) [1; 2; 3; 4] [5; 6; 7; 8] = [1; 6; 3; 8].
Proof.
  split; [unfold where_shape, four; cbn [sz sn st]; lia|]. split; [cbn; auto|]. split.
  { split; [reflexivity|]. split; [reflexivity|]. split.
    - intros i Hi. cbn in Hi. do 3 (destruct i as [|i]; [reflexivity|]). lia.
    - intros i Hi. cbn in Hi. do 4 (destruct i as [|i]; [vm_compute; split; [discriminate|reflexivity]|]). lia. }
  split.
  { split; [reflexivity|]. intros i Hi. cbn in Hi. do 4 (destruct i as [|i]; [vm_compute; split; [discriminate|reflexivity]|]). lia. }
  split; [reflexivity|]. split; vm_compute; reflexivity.
Qed.
Example ex_minus_zero : masked_assign_scalar (Signs 32) known_rhs (EFloat binary32) four (VMask km) [one32; one32; one32; 0] (2 ^ 31) = [one32; 0; one32; 0] /\
  masked_assign_scalar (Signs 32) unknown (EFloat binary32) four (VMask km) [one32; one32; one32; 0] (2 ^ 31) = [one32; 2 ^ 31; one32; 0].
Proof. split; vm_compute; reflexivity. Qed.
Example ex_bits : size_ok 3 /\ means four (BMask 2) [false; true; false] /\
  masked_cassign (lanewise2 (int_lane2 Z.add true 32)) Conditional unknown four (BMask 2) [1; 2; 3; 4] [10; 10; 10; 10] = Some [1; 12; 3; 4] /\
  masked_unary (lanewise1 (int_lane1 UIncrement true 32)) Conditional unknown four (BMask 2) [2 ^ 31 - 1; 2; 3; 4] = None.
Proof.
  split; [vm_compute; lia|]. split.
  { split; [vm_compute; lia|]. split; [reflexivity|]. intros i Hi. cbn in Hi. do 3 (destruct i as [|i]; [reflexivity|]). lia. }
  split; vm_compute; reflexivity.
Qed.
Example ex_mask : mask_masked_assign_bool (Signs 8) true false four (VMask km) (VMask [ones four; 0; 0; 0]) true = Some (VMask [ones four; ones four; 0; 77]) /\
  mask_masked_assign (Signs 8) false four (VMask km) (VMask [ones four; 0; 0; 0]) (VMask [0; ones four; ones four; 9]) = Some (VMask [ones four; ones four; 0; 0]).
Proof. split; vm_compute; reflexivity. Qed.
