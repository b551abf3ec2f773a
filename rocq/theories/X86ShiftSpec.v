(* What a shift of one element means ([expr.shift] of C++20): the element is
   promoted, shifted, and converted back.  w is the number of bits of the
   element type, x the unsigned value of its representation. *)
From Coq Require Import ZArith.
From Verif Require Import X86Lanes.
Open Scope Z_scope.

Definition cpp_shl (w x y : Z) : Z := (x * 2 ^ y) mod 2 ^ w.
Definition cpp_shr_unsigned (x y : Z) : Z := x / 2 ^ y.
(* rounds towards minus infinity *)
Definition cpp_shr_signed (w x y : Z) : Z := uns w (sgn w x / 2 ^ y).

(* A register of n lanes of w bits, and a vector of n counts 0..31. *)
From Coq Require Import List.
Definition register (w : Z) (n : nat) (x : list Z) : Prop := length x = n /\ Forall (fun v => 0 <= v < 2 ^ w) x.
Definition count_vector (n : nat) (y : list Z) : Prop := length y = n /\ Forall (fun c => 0 <= c < 32) y.
(* r is the lane by lane result of shifting lane i of x by f i *)
Definition every_lane (sh : Z -> Z -> Z) (x y r : list Z) : Prop :=
  length r = length x /\ forall i, (i < length x)%nat -> nth i r 0 = sh (nth i x 0) (nth i y 0).
Definition every_lane_by (sh : Z -> Z -> Z) (x : list Z) (n : Z) (r : list Z) : Prop :=
  length r = length x /\ forall i, (i < length x)%nat -> nth i r 0 = sh (nth i x 0) n.
