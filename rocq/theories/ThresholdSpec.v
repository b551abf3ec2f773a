(* P1841 [num.traits.val]: reciprocal_overflow_threshold: "the smallest positive
   value x of type T such that T(1) / x does not overflow". *)
From Coq Require Import ZArith Bool.
From Verif Require Import ScalarSpec FloatSpec FloatRoundSpec LdexpSpec ArithSpec.
Local Open Scope Z_scope.

(* z is 1 / y (y is a positive number of n units) rounded in direction md *)
Definition reciprocal (f : fmt) (md : rmode) (n : Z) (z : datum) : Prop :=
  quotient_result f md (DFin false (one f)) (DFin false n) z.
(* t (a number of units): the reciprocals of t and of all greater numbers are
   finite, whatever the rounding direction; those of smaller numbers overflow
   when rounding to nearest *)
Definition is_threshold (f : fmt) (t : Z) : Prop :=
  0 < t /\ finite_number f t /\
  forall n, finite_number f n -> 0 < n ->
    (t <= n -> forall md z, reciprocal f md n z -> exists k, z = DFin false k) /\
    (n < t -> forall z, reciprocal f ToNearest n z -> z = DInf false).
(* the format has at least 11 digits, as binary16 *)
Definition wide_fmt (f : fmt) : Prop := fmt_ok f /\ 11 <= fp f.
Definition binary16 : fmt := {| fw := 16; fp := 11 |}.
Definition binary128 : fmt := {| fw := 128; fp := 113 |}.

(* P1841 [num.traits.val]: digits10 of an integer type: "the number of base 10
   digits that can be represented without change": all numbers of d decimal
   digits are values of the type, and not all of d + 1 digits *)
Definition is_digits10 (value : Z -> Prop) (d : Z) : Prop :=
  0 <= d /\ (forall v, 0 <= v < 10 ^ d -> value v) /\ exists v, 0 <= v < 10 ^ (d + 1) /\ ~ value v.
(* max_digits10 of an integer type: all values have at most d decimal digits,
   and one has d digits *)
Definition is_max_digits10 (value : Z -> Prop) (d : Z) : Prop :=
  0 < d /\ (forall v, value v -> Z.abs v < 10 ^ d) /\ exists v, value v /\ 10 ^ (d - 1) <= v.
(* the number of m units lies at most half a step from the decimal number of c
   steps, where one step is a / b units *)
Definition written (m c a b : Z) : Prop := 2 * Z.abs (m * b - c * a) <= a.
(* max_digits10 of a floating-point type: "the number of base 10 digits required
   to ensure that values which differ are always differentiated": numbers that
   are written as the same decimal number of d digits (at least 10^(d-1) steps)
   are equal *)
Definition differentiates (f : fmt) (d : Z) : Prop :=
  forall m n, finite_number f m -> finite_number f n ->
  forall c a b, 0 < a -> 0 < b -> 10 ^ (d - 1) <= c -> written m c a b -> written n c a b -> m = n.
(* the values of bool *)
Definition bool_value (v : Z) : Prop := v = 0 \/ v = 1.
