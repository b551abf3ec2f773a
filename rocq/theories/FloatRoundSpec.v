(* What rounding to an integer means (IEEE 754-2008 4.3 and 5.9, C 7.12.9), on
   numbers counted in units of the smallest positive number (FloatSpec).  The
   number one is 2^unit units. *)
From Coq Require Import ZArith.
From Verif Require Import FloatSpec.
Open Scope Z_scope.

(* 4.3: the rounding directions (MXCSR.RC, fesetround) *)
Inductive rmode := ToNearest | ToZero | Upward | Downward.

(* one in units of the smallest positive number *)
Definition unit (f : fmt) : Z := mb f + bias f - 1.
Definition one (f : fmt) : Z := 2 ^ unit f.

(* the integer k (k * u with u units to the one) is v rounded in direction md *)
Definition rounded_to (md : rmode) (u v k : Z) : Prop :=
  match md with
  | Downward => k * u <= v < (k + 1) * u
  | Upward => (k - 1) * u < v <= k * u
  | ToZero => (0 <= v -> k * u <= v < (k + 1) * u) /\ (v <= 0 -> (k - 1) * u < v <= k * u)
  | ToNearest => 2 * Z.abs (v - k * u) <= u /\ (2 * Z.abs (v - k * u) = u -> Z.Even k)
  end.
(* C 7.12.9.6 round: the nearest integer, halfway cases away from zero *)
Definition rounded_half_away (u v k : Z) : Prop :=
  2 * Z.abs (v - k * u) <= u /\ (2 * Z.abs (v - k * u) = u -> Z.abs v < Z.abs (k * u)).

(* y is x rounded to an integer by r: NaN gives NaN, an infinity itself, a
   finite number the integer r prescribes; numbers from 2^(p-1) on, which are
   integers already, are returned unchanged, sign and all *)
Definition integer_result (r : Z -> Z -> Z -> Prop) (f : fmt) (x y : datum) : Prop :=
  match x with
  | DNaN => y = DNaN
  | DInf s => y = DInf s
  | DFin s m =>
      exists s' k m', y = DFin s' m' /\ num s' m' = k * one f /\ r (one f) (num s m) k /\
        (2 ^ mb f * one f <= m -> y = x)
  end.
