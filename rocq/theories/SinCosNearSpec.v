(* How close a floating-point number is to a real number, without reference to the
   library (IEEE 754 3.3). *)
From Coq Require Import ZArith Reals List.
From Verif Require Import FloatSpec FloatRoundSpec.
Open Scope R_scope.

(* the number a sign and a count of units stand for *)
Definition real (f : fmt) (s : bool) (m : Z) : R := IZR (num s m) / IZR (one f).
(* d is finite and within e of X *)
Definition close (f : fmt) (d : datum) (X e : R) : Prop :=
  match d with DFin s m => Rabs (real f s m - X) <= e | _ => False end.
(* |d| is less than b *)
Definition less (f : fmt) (d : datum) (b : Z) : Prop := match d with DFin _ m => (m < b * one f)%Z | _ => False end.
(* the i-th of rs is within e of F of the i-th of xs, for all finite elements below
   2^31 in magnitude *)
Definition closely (f : fmt) (F : R -> R) (e : R) (xs rs : list Z) : Prop :=
  Forall2 (fun x r => forall s m, decode f x = DFin s m -> less f (decode f x) (2 ^ 31) -> close f (decode f r) (F (real f s m)) e) xs rs.
