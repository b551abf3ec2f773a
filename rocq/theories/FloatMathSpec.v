(* What copysign, fabs, modf, frexp and logb must return (C 7.12, IEEE 754-2008
   5.5.1 and 5.3.3), for numbers counted in units of the smallest positive
   number (FloatSpec). *)
From Coq Require Import ZArith.
From Verif Require Import FloatSpec FloatRoundSpec.
Open Scope Z_scope.

(* C 7.12.6.12: fraction and integral part add up to x, and both have the sign
   of x; sign_too is false if nothing is said about the sign of a zero integral
   part *)
Definition modf_result (sign_too : bool) (f : fmt) (x frac integral : datum) : Prop :=
  match x with
  | DNaN => frac = DNaN /\ integral = DNaN
  | DInf s => frac = DFin s 0 /\ integral = DInf s
  | DFin s m =>
      exists fr k s', frac = DFin s fr /\ integral = DFin s' (k * one f) /\
        0 <= fr < one f /\ 0 <= k /\ fr + k * one f = m /\
        (k <> 0 \/ sign_too = true -> s' = s)
  end.

(* C 7.12.6.4: x = y * 2^e with 1/2 <= |y| < 1 *)
Definition frexp_result (f : fmt) (x y : datum) (e : Z) : Prop :=
  match x with
  | DNaN => y = DNaN
  | DInf s => y = DInf s
  | DFin s m =>
      if m =? 0 then y = x /\ e = 0
      else exists n, y = DFin s n /\ one f <= 2 * n /\ n < one f /\
        n * 2 ^ Z.max e 0 = m * 2 ^ Z.max (- e) 0
  end.

(* C 7.12.6.11: 2^e <= |x| < 2^(e+1) *)
Definition logb_result (f : fmt) (x y : datum) : Prop :=
  match x with
  | DNaN => y = DNaN
  | DInf _ => y = DInf false
  | DFin s m =>
      if m =? 0 then y = DInf true
      else exists e s' n, y = DFin s' n /\ num s' n = e * one f /\
        0 <= unit f + e /\ 2 ^ (unit f + e) <= m < 2 ^ (unit f + e + 1)
  end.
