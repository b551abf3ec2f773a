(* The mask types of ARM. *)
From Coq Require Import List ZArith Bool Arith.
From Verif Require Import X86Mask Neon.

(* elements of 1, 2, 4 or 8 bytes in a vector of 2, 4, 8 or 16 bytes of which
   more than half is used *)
Definition neon_ok (s : shape) : Prop :=
  (sz s = 1 \/ sz s = 2 \/ sz s = 4 \/ sz s = 8) /\
  (nbytes s = 2 \/ nbytes s = 4 \/ nbytes s = 8 \/ nbytes s = 16) /\
  2 <= sn s <= st s /\ st s < 2 * sn s.

(* all lanes of the vector are elements *)
Definition full (s : shape) : Prop := sn s = st s.

(* a lane of a mask: all bits one or zero *)
Definition lane_of_bool (s : shape) (b : bool) : Z := (if b then 2 ^ (8 * Z.of_nat (sz s)) - 1 else 0)%Z.
