(* C60: the comparison operators and operator! of simd types in one register. *)
From Coq Require Import ZArith List Bool Lia Arith.
From Verif Require Import Prelude X86Lanes FloatSpec FloatBits KMask KMaskSpec X86Mask X86MaskSpec Where WhereSpec Compare CompareSpec CompareProofs CompareTop.
Import ListNotations.
Local Open Scope Z_scope.

(* SSE and AVX: the mask has element i of x op y for every element; the other lanes hold
   any value *)
Theorem C60_vector : forall r e wide s jx jy x y,
  where_shape s -> register s x -> register s y ->
  holds s (vector_op r e wide s jx jy x y) (truths r e s x y).
Proof. intros r e wide s jx jy x y [_ N]. intros. apply vector_ok; auto. apply N. Qed.
Print Assumptions C60_vector.

(* AVX-512: there is an instruction for every element type and register, and the bits are
   those of x op y.  There are no other bits unless != of integers is computed at run time *)
Theorem C60_bits : forall r e kn s x y,
  elem_ok e (sz s) -> zmm_shape s -> register s x -> register s y ->
  exists m, bits_op r e kn s x y = Some m /\ means s (BMask m) (truths r e s x y) /\
    0 <= m < 2 ^ Z.of_nat (kw (sn s)) /\
    (kn <> Unknown \/ e = CFloat \/ r <> RNotEqual -> m < 2 ^ Z.of_nat (sn s)).
Proof. exact bits_core. Qed.
Print Assumptions C60_bits.

(* != of integers at run time sets every bit that stands for no element: the representation
   differs from the one computed at compile time *)
Theorem C60_not_equal_refuted : forall sg s x y,
  elem_ok (CInt sg) (sz s) -> zmm_shape s -> register s x -> register s y ->
  exists m, bits_op RNotEqual (CInt sg) Unknown s x y = Some m /\
    forall i, (sn s <= i < kw (sn s))%nat -> Z.testbit m (Z.of_nat i) = true.
Proof. exact stray_core. Qed.
Print Assumptions C60_not_equal_refuted.

(* operator! *)
Theorem C60_not : forall e s x,
  where_shape s -> register s x -> holds s (vector_not e s x) (zeros e s x).
Proof. intros e s x [Z1 N]. intros. apply not_vector_core; auto. apply N. Qed.
Print Assumptions C60_not.
Theorem C60_not_bits : forall e kn s x,
  elem_ok e (sz s) -> zmm_shape s -> register s x ->
  exists m, bits_not e kn s x = Some m /\ means s (BMask m) (zeros e s x) /\ 0 <= m < 2 ^ Z.of_nat (sn s).
Proof. exact not_bits_core. Qed.
Print Assumptions C60_not_bits.

(* the hypotheses can be met: three floats 1., NaN, -0. in a register of four, and
   three signed shorts in a vector of 8 bytes *)
Definition ex_fs : shape := {| sz := 4; fp := true; st := 4; rl := 4; sn := 3 |}.
Definition ex_ss : shape := {| sz := 2; fp := false; st := 4; rl := 8; sn := 3 |}.
Definition ex_fx : list Z := [1065353216; 2143289344; 2147483648; 7].
Definition ex_fy : list Z := [1073741824; 2143289344; 0; 7].
Definition ex_sx : list Z := [65535; 32767; 5; 9].
Definition ex_sy : list Z := [1; 32768; 5; 8].
Ltac reg := split; [reflexivity|]; intros [|[|[|[|]]]] ?; cbn in *; lia.
Example ex_registers : register ex_fs ex_fx /\ register ex_fs ex_fy /\ register ex_ss ex_sx /\ register ex_ss ex_sy.
Proof. split; [reg|]. split; [reg|]. split; reg. Qed.
Example ex_shapes : where_shape ex_fs /\ zmm_shape ex_fs /\ elem_ok CFloat (sz ex_fs) /\ where_shape ex_ss /\ zmm_shape ex_ss /\ elem_ok (CInt true) (sz ex_ss).
Proof. unfold where_shape, zmm_shape, elem_ok; cbn. lia. Qed.
Example ex_vector :
  vector_op REqual (CInt true) true ex_ss [1; 2; 3; 4] [5; 6; 7; 8] ex_sx ex_sy = [0; 0; 65535; 0] /\
  vector_op RLessThan (CInt true) true ex_ss [] [] ex_sx ex_sy = [65535; 0; 0; 0] /\
  vector_op RGreaterOrEqual (CInt false) true ex_ss [] [] ex_sx ex_sy = [65535; 0; 65535; 65535] /\
  truths RNotEqual CFloat ex_fs ex_fx ex_fy = [true; true; false].
Proof. repeat split; vm_compute; reflexivity. Qed.
Example ex_bits :
  bits_op RLessThan CFloat Unknown ex_fs ex_fx ex_fy = Some 1 /\
  bits_op RNotEqual CFloat Unknown ex_fs ex_fx ex_fy = Some 3 /\
  bits_op RNotEqual (CInt true) Unknown ex_ss ex_sx ex_sy = Some 251 /\
  bits_op RNotEqual (CInt true) Known ex_ss ex_sx ex_sy = Some 3 /\
  bits_op RGreaterThan (CInt true) KnownOperands ex_ss ex_sx ex_sy = Some 2 /\
  bits_not CFloat Unknown ex_fs ex_fx = Some 4.
Proof. repeat split; vm_compute; reflexivity. Qed.
