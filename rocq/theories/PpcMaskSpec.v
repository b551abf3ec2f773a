(* The mask types of PowerPC. *)
From Coq Require Import List ZArith Bool Arith.
From Verif Require Import X86Mask.

(* elements of 1, 2, 4 or 8 bytes in a vector of 2, 4, 8 or 16 bytes of which
   more than half is used *)
Definition ppc_ok (s : shape) : Prop :=
  (sz s = 1 \/ sz s = 2 \/ sz s = 4 \/ sz s = 8) /\
  (st s * sz s = 2 \/ st s * sz s = 4 \/ st s * sz s = 8 \/ st s * sz s = 16) /\
  2 <= sn s <= st s /\ st s < 2 * sn s.

(* the lanes that are no elements are zero *)
Definition clean (s : shape) (x : list Z) : Prop := forall i, sn s <= i < st s -> nth i x 0%Z = 0%Z.

(* a lane of a mask: all bits one or zero *)
Definition mask_lane (s : shape) (b : bool) : Z := (if b then 2 ^ (8 * Z.of_nat (sz s)) - 1 else 0)%Z.
