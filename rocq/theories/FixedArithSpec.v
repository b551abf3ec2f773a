(* Specification of C71; sum_result, product_result, quotient_result and sqrt_result
   are in ArithSpec.v, integer_result in FloatRoundSpec.v. *)
From Coq Require Import ZArith.
From Verif Require Import FloatSpec FloatRoundSpec FloatBits ArithSpec FixedArith.

(* IEEE 754-2008 5.4.1 *)
Definition arith_result (op : arith) (f : fmt) (md : rmode) (x y z : datum) : Prop :=
  match op with
  | APlus => sum_result f md x y z
  | AMinus => sum_result f md x (neg y) z
  | AMultiplies => product_result f md x y z
  | ADivides => quotient_result f md x y z
  end.
(* C 7.12.9 *)
Definition rounding_rule (fn : rounding) (md : rmode) : Z -> Z -> Z -> Prop :=
  match fn with
  | FTrunc => rounded_to ToZero
  | FFloor => rounded_to Downward
  | FCeil => rounded_to Upward
  | FRound => rounded_half_away
  | FNearbyint => rounded_to md
  end.
Definition std_sqrt_ok (f : fmt) (md : rmode) (std_sqrt : Z -> Z) : Prop :=
  forall a, pattern f a -> sqrt_result f md (decode f a) (decode f (std_sqrt a)).
Definition std_rounding_ok (f : fmt) (md : rmode) (std : rounding -> Z -> Z) : Prop :=
  forall fn a, pattern f a -> integer_result (rounding_rule fn md) f (decode f a) (decode f (std fn a)).
