(* What C and IEEE 754 say about sin and cos of special values, without reference
   to the library (C 7.12.4.5, 7.12.4.6, F.10.1.5, F.10.1.6). *)
From Coq Require Import ZArith List Bool.
From Verif Require Import FloatSpec FloatRoundSpec.
Open Scope Z_scope.

(* neither NaN nor an infinity has a sine *)
Definition no_number (d : datum) : Prop := match d with DFin _ _ => False | _ => True end.
(* -d *)
Definition opposite (d : datum) : datum :=
  match d with DNaN => DNaN | DInf s => DInf (negb s) | DFin s m => DFin (negb s) m end.
(* |d| < 2^31 *)
Definition within_int (f : fmt) (d : datum) : Prop :=
  match d with DFin _ m => m < 2 ^ 31 * one f | _ => False end.
(* rounding modes in which rounding -x gives the opposite of rounding x *)
Definition symmetric (md : rmode) : Prop := md = ToNearest \/ md = ToZero.
(* finite, |d| >= 2^32 *)
Definition beyond_int (f : fmt) (d : datum) : Prop :=
  match d with DFin _ m => 2 ^ 32 * one f <= m | _ => False end.
