(* What a shift with a count per lane must do for the first n lanes of a
   register that has more lanes than the simd has elements: the counts of the
   elements are in the range the element type allows, the other lanes of the
   counts (and of the values) hold anything. *)
From Coq Require Import ZArith List.
Open Scope Z_scope.

(* the counts of the first n lanes are 0 .. lim - 1 *)
Definition first_counts (n : nat) (lim : Z) (y : list Z) : Prop := forall i, (i < n)%nat -> 0 <= nth i y 0 < lim.
(* the first n lanes of r are the first n lanes of x shifted by those of y *)
Definition first_lanes (sh : Z -> Z -> Z) (n : nat) (x y r : list Z) : Prop :=
  forall i, (i < n)%nat -> nth i r 0 = sh (nth i x 0) (nth i y 0).
