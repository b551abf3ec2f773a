(* C66: the bitwise operators work on the bits of each element, whatever lanes the
   instruction has. *)
From Coq Require Import ZArith Lia List Bool.
From Verif Require Import BitOps BitOpsSpec BitOpsProofs.
Import ListNotations.
Open Scope Z_scope.

Notation bit n a i j := (Z.testbit (element n a i) j).
(* x & y, x | y, x ^ y, ~x, and the helper __not, for integers and (in
   __float_bitwise_operators) floating-point types *)
Theorem C66_operators n a b : register n a -> register n b -> length a = length b ->
  bitwise n a (simd_and n a b) (fun i j => bit n a i j && bit n b i j) /\
  bitwise n a (simd_or n a b) (fun i j => bit n a i j || bit n b i j) /\
  bitwise n a (simd_xor n a b) (fun i j => xorb (bit n a i j) (bit n b i j)) /\
  bitwise n a (simd_complement n a) (fun i j => negb (bit n a i j)) /\
  (forall k, (k = Floating -> 4 <= n)%nat -> bitwise n a (v_not k n a) (fun i j => negb (bit n a i j))).
Proof.
  intros Ha Hb HL. split; [apply and_ok; auto|]. split; [apply or_ok; auto|]. split; [apply xor_ok; auto|].
  split; [apply (not_ok Integral n a Ha); discriminate|]. intros k Hk. apply not_ok; auto.
Qed.
Print Assumptions C66_operators.

(* __andnot on every target, although integers of every size are combined in 64-bit lanes *)
Theorem C66_andnot t k n a b : register n a -> register n b -> length a = length b ->
  bitwise n a (v_andnot t k n a b) (fun i j => negb (bit n a i j) && bit n b i j).
Proof. exact (andnot_ok t k n a b). Qed.
Print Assumptions C66_andnot.

(* &, |, ^, &&, || of vector masks give the masks of the element-wise results; whatever is
   in the padding *)
Theorem C66_mask_operators n x y lx ly : is_mask n x lx -> is_mask n y ly -> length lx = length ly -> length x = length y ->
  is_mask n (mask_and n x y) (map (fun p => fst p && snd p) (combine lx ly)) /\
  is_mask n (mask_or n x y) (map (fun p => fst p || snd p) (combine lx ly)) /\
  is_mask n (mask_xor n x y) (map (fun p => xorb (fst p) (snd p)) (combine lx ly)).
Proof.
  intros Hx Hy HL E. assert (Rx : register n x) by apply Hx. assert (Ry : register n y) by apply Hy. split; [|split].
  - apply (binary_mask n x y _ lx ly andb); auto. apply and_ok; auto.
  - apply (binary_mask n x y _ lx ly orb); auto. apply or_ok; auto.
  - apply (binary_mask n x y _ lx ly xorb); auto. apply xor_ok; auto.
Qed.
Print Assumptions C66_mask_operators.

(* !k negates the N elements and leaves no true in the padding, even if k had one there *)
Theorem C66_mask_not t n N m l : is_mask n m l -> length l = N ->
  is_mask n (mask_not t n N m) (map negb l) /\ clean n (mask_not t n N m) N.
Proof. exact (mask_not_ok t n N m l). Qed.
Print Assumptions C66_mask_not.

(* where(k, x) = 0, where(k, m) = true or false, and the SSE2 blend choose element by
   element *)
Theorem C66_select t kd n k l x y : is_mask n k l -> register n x -> register n y -> length x = length k -> length y = length k ->
  (forall i, (i < length l)%nat -> element n (assign_zero t kd n k x) i = if nth i l false then 0 else element n x i) /\
  (forall i, (i < length l)%nat -> element n (blend_sse2 t kd n k x y) i = if nth i l false then element n y i else element n x i).
Proof.
  intros Hk Hx Hy HL HL'. split; [apply (zero_ok t kd n k l x Hk Hx HL)|apply (blend_ok t kd n k l x y Hk Hx Hy HL HL')].
Qed.
Print Assumptions C66_select.
Theorem C66_mask_select t n k lk m lm v : is_mask n k lk -> is_mask n m lm -> length lk = length lm -> length k = length m ->
  is_mask n (mask_assign_const t n k m v) (map (fun p : bool * bool => if fst p then v else snd p) (combine lk lm)).
Proof. exact (mask_const_ok t n k lk m lm v). Qed.
Print Assumptions C66_mask_select.

(* the scalar ABI, for integers of 8 to 64 bits: the promotion to int is not visible *)
Theorem C66_scalar sgn w x y : of_type sgn w x -> of_type sgn w y ->
  let same (r : Z) (e : Z -> bool) := of_type sgn w r /\ forall j, 0 <= j < w -> Z.testbit r j = e j in
  same (scalar_op Z.land sgn w x y) (fun j => Z.testbit x j && Z.testbit y j) /\
  same (scalar_op Z.lor sgn w x y) (fun j => Z.testbit x j || Z.testbit y j) /\
  same (scalar_op Z.lxor sgn w x y) (fun j => xorb (Z.testbit x j) (Z.testbit y j)) /\
  same (scalar_complement sgn w x) (fun j => negb (Z.testbit x j)).
Proof.
  intros Hx Hy same. subst same. cbn beta. split; [|split; [|split]].
  - exact (scalar_ok Z.land andb sgn w x y p_and Hx Hy).
  - exact (scalar_ok Z.lor orb sgn w x y p_or Hx Hy).
  - exact (scalar_ok Z.lxor xorb sgn w x y p_xor Hx Hy).
  - exact (complement_ok sgn w x Hx).
Qed.
Print Assumptions C66_scalar.

(* eight elements of 16 bits; the lane of pandn holds four *)
Definition a16 : list Z := [255; 0; 15; 240; 1; 2; 3; 4; 0; 0; 255; 255; 128; 0; 0; 128].
Definition b16 : list Z := [255; 255; 255; 255; 255; 0; 255; 0; 170; 85; 170; 85; 255; 255; 255; 255].
Ltac reg p := split; [cbn; auto 6|]; split; [exists p; reflexivity|]; split; [cbn; lia|]; repeat constructor; lia.
Example regs : register 2 a16 /\ register 2 b16.
Proof. split; reg 4%nat. Qed.
Example andnot_values :
  v_andnot {| x86_gcc := true; has_avx512dq := false; constants := false |} Integral 2 a16 b16
  = [0; 255; 240; 15; 254; 0; 252; 0; 170; 85; 0; 0; 127; 255; 255; 127].
Proof. reflexivity. Qed.
(* three floats in four lanes, with a true in the padding *)
Definition m3 : list Z := [255; 255; 255; 255; 0; 0; 0; 0; 255; 255; 255; 255; 255; 255; 255; 255].
Example mask3 : is_mask 4 m3 [true; false; true].
Proof.
  split; [reg 4%nat|]. split; [cbn; lia|]. intros [|[|[|i]]] Hi; try reflexivity. cbn in Hi; lia.
Qed.
Example not3 : mask_not {| x86_gcc := true; has_avx512dq := false; constants := false |} 4 3 m3
  = [0; 0; 0; 0; 255; 255; 255; 255; 0; 0; 0; 0; 0; 0; 0; 0].
Proof. reflexivity. Qed.
Example scalars : of_type true 8 (-86) /\ of_type true 8 15 /\ scalar_op Z.land true 8 (-86) 15 = 10
  /\ of_type false 16 65535 /\ scalar_complement false 16 61440 = 4095.
Proof. unfold of_type. cbn; intuition lia. Qed.
