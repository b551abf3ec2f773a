(* What the scalar ABI must compute for integers, in terms of integers only. *)
From Coq Require Import ZArith List.
Open Scope Z_scope.

(* an element type: its width in bits and whether it is signed *)
Record ity := { iw : Z; isg : bool }.
Definition std_type (t : ity) : Prop := iw t = 8 \/ iw t = 16 \/ iw t = 32 \/ iw t = 64.
(* the values of the type *)
Definition has (t : ity) (v : Z) : Prop :=
  if isg t then - 2 ^ (iw t - 1) <= v < 2 ^ (iw t - 1) else 0 <= v < 2 ^ iw t.
(* r is the value of the type that is congruent to v modulo 2^w *)
Definition wraps_to (t : ity) (v r : Z) : Prop := has t r /\ exists k, r = v + k * 2 ^ iw t.
