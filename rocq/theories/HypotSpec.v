(* What hypot must return.  Numbers in units of the smallest positive number
   (FloatSpec), squares of numbers in its square. *)
From Coq Require Import ZArith List Bool.
From Verif Require Import FloatSpec FloatRoundSpec.
Import ListNotations.
Open Scope Z_scope.

Definition nearest (md : rmode) : bool := match md with ToNearest => true | _ => false end.
(* one over the largest relative error of one rounded operation *)
Definition precision (f : fmt) (md : rmode) : Z := if nearest md then 2 ^ fp f else 2 ^ (fp f - 1).
(* the largest finite number *)
Definition max_num (f : fmt) : Z := (2 ^ fp f - 1) * 2 ^ (2 ^ eb f - 3).

(* the number m approximates the square root of s: the relative error of its
   square is at most c times that of one rounded operation (so that of m is about
   c / 2 times that), or m differs from the root by less than d times the smallest
   positive number (2 * d in the directed rounding modes) *)
Definition close (f : fmt) (md : rmode) (c d : Z) (m s : Z) : Prop :=
  precision f md * Z.abs (m * m - s) <= c * s \/
  (let d := if nearest md then d else 2 * d in s < (m + d) * (m + d) /\ (m <= d \/ (m - d) * (m - d) < s)).

(* the arguments and their squares *)
Definition is_infinite (x : datum) : bool := match x with DInf _ => true | _ => false end.
Definition is_not_a_number (x : datum) : bool := match x with DNaN => true | _ => false end.
Definition square (x : datum) : Z := match x with DFin _ m => m * m | _ => 0 end.
Definition sum_of_squares (l : list datum) : Z := fold_right Z.add 0 (map square l).

(* C F.10.4.3: an infinite argument gives +infinity, even if another one is NaN;
   a NaN gives NaN; otherwise the result is close to the root of the sum of the
   squares.  It is infinite or the largest number for another reason only if the
   root is greater than the largest number or within the error bound of it *)
Definition hypot_result (f : fmt) (md : rmode) (c d : Z) (args : list datum) (r : datum) : Prop :=
  if existsb is_infinite args then r = DInf false
  else if existsb is_not_a_number args then r = DNaN
  else
    let s := sum_of_squares args in
    let overflow := precision f md * (max_num f * max_num f) < (precision f md + c) * s in
    (exists m, r = DFin false m /\ close f md c d m s) \/
    (overflow /\ (r = DInf false \/ r = DFin false (max_num f))).
