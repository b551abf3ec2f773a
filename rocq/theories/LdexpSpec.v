(* IEEE 754-2008 4.3: what a correctly rounded result is; 5.3.3 scaleB and C
   7.12.6.6 ldexp.  Numbers count units of the smallest positive number
   (FloatSpec.v). *)
From Coq Require Import ZArith Bool.
From Verif Require Import FloatSpec FloatRoundSpec.
Local Open Scope Z_scope.

(* n is the magnitude of a finite number of the format, with the bit pattern x *)
Definition number_at (f : fmt) (x n : Z) : Prop := pattern f x /\ decode f x = DFin false n.
Definition finite_number (f : fmt) (n : Z) : Prop := exists x, number_at f x n.
(* the largest finite number and the next power of two *)
Definition top (f : fmt) : Z := 2 ^ (mb f + 2 * bias f).
Definition largest (f : fmt) : Z := top f - 2 ^ (2 * bias f - 1).
(* in magnitude: toward zero, away from zero, or to the nearest *)
Inductive direction := Inward | Outward | Nearest.
Definition direction_of (md : rmode) (s : bool) : direction :=
  match md with
  | ToNearest => Nearest
  | ToZero => Inward
  | Upward => if s then Inward else Outward
  | Downward => if s then Outward else Inward
  end.
(* y is the number of sign s and magnitude v / u, rounded in direction md *)
Definition correctly_rounded (f : fmt) (md : rmode) (s : bool) (v u : Z) (y : datum) : Prop :=
  match y with
  | DNaN => False
  | DInf s' => s' = s /\
      match direction_of md s with
      | Inward => False
      | Outward => largest f * u < v
      | Nearest => (largest f + top f) * u <= 2 * v
      end
  | DFin s' n => s' = s /\ exists x, number_at f x n /\
      match direction_of md s with
      | Inward => n * u <= v /\ forall n', finite_number f n' -> n' * u <= v -> n' <= n
      | Outward => v <= n * u /\ forall n', finite_number f n' -> v <= n' * u -> n <= n'
      | Nearest => 2 * v < (largest f + top f) * u /\
          forall n', finite_number f n' -> Z.abs (n * u - v) <= Z.abs (n' * u - v) /\
            (n' <> n -> Z.abs (n * u - v) = Z.abs (n' * u - v) -> Z.even x = true)
      end
  end.
(* ldexp(x, e) = x * 2^e *)
Definition ldexp_result (f : fmt) (md : rmode) (x : datum) (e : Z) (y : datum) : Prop :=
  match x with
  | DNaN => y = DNaN
  | DInf s => y = DInf s
  | DFin s m => correctly_rounded f md s (m * 2 ^ Z.max e 0) (2 ^ Z.max (- e) 0) y
  end.
