(* IEEE 754-2008 5.4.1, 6.1, 6.3: what the operations return.  Numbers count units
   (FloatSpec.v); correctly_rounded is in LdexpSpec.v. *)
From Coq Require Import ZArith Bool Reals.
From Verif Require Import FloatSpec FloatRoundSpec LdexpSpec.
Local Open Scope Z_scope.

Definition neg (x : datum) : datum := match x with DNaN => DNaN | DInf s => DInf (negb s) | DFin s m => DFin (negb s) m end.
(* 6.3: an exact zero sum of numbers of different sign is +0, when rounding downward -0 *)
Definition zero_sign (md : rmode) : bool := match md with Downward => true | _ => false end.
(* the signed number v / u (v <> 0) correctly rounded *)
Definition rounds_to (f : fmt) (md : rmode) (v u : Z) (y : datum) : Prop := correctly_rounded f md (v <? 0) (Z.abs v) u y.
Definition sum_result (f : fmt) (md : rmode) (x y z : datum) : Prop :=
  match x, y with
  | DNaN, _ | _, DNaN => z = DNaN
  | DInf a, DInf b => z = if Bool.eqb a b then DInf a else DNaN
  | DInf a, DFin _ _ | DFin _ _, DInf a => z = DInf a
  | DFin a m, DFin b n =>
      (num a m + num b n = 0 -> z = DFin (if Bool.eqb a b then a else zero_sign md) 0) /\
      (num a m + num b n <> 0 -> rounds_to f md (num a m + num b n) 1 z)
  end.
Definition product_result (f : fmt) (md : rmode) (x y z : datum) : Prop :=
  match x, y with
  | DNaN, _ | _, DNaN => z = DNaN
  | DInf a, DInf b => z = DInf (xorb a b)
  | DInf a, DFin b n | DFin b n, DInf a => z = if n =? 0 then DNaN else DInf (xorb a b)
  | DFin a m, DFin b n => correctly_rounded f md (xorb a b) (m * n) (one f) z
  end.
Definition quotient_result (f : fmt) (md : rmode) (x y z : datum) : Prop :=
  match x, y with
  | DNaN, _ | _, DNaN | DInf _, DInf _ => z = DNaN
  | DInf a, DFin b _ => z = DInf (xorb a b)
  | DFin a _, DInf b => z = DFin (xorb a b) 0
  | DFin a m, DFin b n =>
      if n =? 0 then z = if m =? 0 then DNaN else DInf (xorb a b)
      else correctly_rounded f md (xorb a b) (m * one f) n z
  end.
(* x * y + c with one rounding *)
Definition fused_result (f : fmt) (md : rmode) (a : bool) (m : Z) (b : bool) (n : Z) (c : bool) (k : Z) (z : datum) : Prop :=
  let v := num a m * num b n + num c k * one f in
  (v = 0 -> z = DFin (if Bool.eqb (xorb a b) c then c else zero_sign md) 0) /\ (v <> 0 -> rounds_to f md v (one f) z).

(* the number r >= 0 (of units), a real number, correctly rounded: as correctly_rounded *)
Local Open Scope R_scope.
Definition rounded_real (f : fmt) (md : rmode) (s : bool) (r : R) (y : datum) : Prop :=
  match y with
  | DNaN => False
  | DInf s' => s' = s /\
      match direction_of md s with
      | Inward => False
      | Outward => IZR (largest f) < r
      | Nearest => IZR (largest f + top f) <= 2 * r
      end
  | DFin s' n => s' = s /\ exists x, number_at f x n /\
      match direction_of md s with
      | Inward => IZR n <= r /\ forall n', finite_number f n' -> IZR n' <= r -> (n' <= n)%Z
      | Outward => r <= IZR n /\ forall n', finite_number f n' -> r <= IZR n' -> (n <= n')%Z
      | Nearest => 2 * r < IZR (largest f + top f) /\
          forall n', finite_number f n' -> Rabs (IZR n - r) <= Rabs (IZR n' - r) /\
            (n' <> n -> Rabs (IZR n - r) = Rabs (IZR n' - r) -> Z.even x = true)
      end
  end.
(* 5.4.1 squareRoot: a number of m units is m / one, its root is sqrt(m * one) units *)
Definition sqrt_result (f : fmt) (md : rmode) (x z : datum) : Prop :=
  match x with
  | DNaN => z = DNaN
  | DInf s => z = if s then DNaN else DInf false
  | DFin s m =>
      if (m =? 0)%Z then z = DFin s 0 else if s then z = DNaN
      else rounded_real f md false (sqrt (IZR m * IZR (one f))) z
  end.

(* 7.3: a division of a finite number other than zero by zero raises the exception *)
Definition divides_by_zero (x y : datum) : Prop :=
  match x, y with DFin _ m, DFin _ n => m <> 0%Z /\ n = 0%Z | _, _ => False end.
