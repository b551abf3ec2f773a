(* C41: integer arithmetic of the scalar ABI. *)
From Coq Require Import ZArith List Bool Lia.
From Verif Require Import ScalarSpec Scalar ScalarProofs.
Open Scope Z_scope.

(* None is undefined behaviour.  A shift count may be as large as for the plain
   operators *)
Theorem C41_unsigned : forall t x y, std_type t -> isg t = false -> has t x -> has t y ->
  s_plus t x y = Some ((x + y) mod 2 ^ iw t) /\ s_minus t x y = Some ((x - y) mod 2 ^ iw t) /\
  s_multiplies t x y = Some ((x * y) mod 2 ^ iw t) /\
  (forall n, 0 <= n < Z.max 32 (iw t) ->
    s_shift_left t x n = Some ((x * 2 ^ n) mod 2 ^ iw t) /\ s_shift_right t x n = Some (x / 2 ^ n)) /\
  (y <> 0 -> s_divides t x y = Some (x / y) /\ s_modulus t x y = Some (x mod y)) /\
  s_unary_minus t x = Some ((- x) mod 2 ^ iw t) /\ s_complement t x = Some (2 ^ iw t - 1 - x) /\
  s_increment t x = Some ((x + 1) mod 2 ^ iw t) /\ s_decrement t x = Some ((x - 1) mod 2 ^ iw t).
Proof. exact c41_unsigned. Qed.
Print Assumptions C41_unsigned.
Theorem C41_bits : forall t x y, std_type t -> isg t = false -> has t x -> has t y ->
  exists a o e, s_bit_and t x y = Some a /\ s_bit_or t x y = Some o /\ s_bit_xor t x y = Some e /\
    has t a /\ has t o /\ has t e /\
    forall i, 0 <= i < iw t -> Z.testbit a i = Z.testbit x i && Z.testbit y i /\
      Z.testbit o i = Z.testbit x i || Z.testbit y i /\ Z.testbit e i = xorb (Z.testbit x i) (Z.testbit y i).
Proof. exact c41_bits. Qed.
Print Assumptions C41_bits.
(* signed types, for comparison: undefined exactly if the result does not fit
   into the promoted type, which never happens for types smaller than int *)
Theorem C41_signed : forall t x y, std_type t -> isg t = true -> has t x -> has t y ->
  let fits v := - 2 ^ (Z.max 32 (iw t) - 1) <= v < 2 ^ (Z.max 32 (iw t) - 1) in
  let ok v r := (fits v -> exists w, r = Some w /\ wraps_to t v w) /\ (~ fits v -> r = None) in
  ok (x + y) (s_plus t x y) /\ ok (x - y) (s_minus t x y) /\ ok (x * y) (s_multiplies t x y) /\
  (iw t < 32 -> fits (x + y) /\ fits (x - y) /\ fits (x * y)).
Proof. exact c41_signed. Qed.
Print Assumptions C41_signed.

(* 65535 * 65535 as unsigned short: plain C++ overflows int, the scalar ABI
   gives 1 *)
Definition u16 := {| iw := 16; isg := false |}.
Definition i16 := {| iw := 16; isg := true |}.
Definition i32 := {| iw := 32; isg := true |}.
Example ex_u16 : std_type u16 /\ has u16 65535 /\ c_arith Z.mul u16 65535 65535 = None /\ s_multiplies u16 65535 65535 = Some 1 /\
  c_shl u16 65535 17 = None /\ s_shift_left u16 65535 17 = Some 0 /\ s_shift_left u16 65535 15 = Some 32768.
Proof. split; [right; left; auto|]. split; [cbn; lia|]. vm_compute. auto. Qed.
Example ex_signed : std_type i16 /\ has i16 (-32768) /\ s_multiplies i16 (-32768) (-32768) = Some 0 /\ s_plus i16 32767 1 = Some (-32768) /\
  std_type i32 /\ s_plus i32 (2 ^ 31 - 1) 1 = None.
Proof. split; [right; left; auto|]. split; [cbn; lia|]. split; [reflexivity|]. split; [reflexivity|]. split; [right; right; left; auto|reflexivity]. Qed.
