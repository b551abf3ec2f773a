(* Specification of C68: what the C standard requires of std::modf, std::trunc
   and std::isinf; modf_result is in FloatMathSpec.v. *)
From Coq Require Import ZArith.
From Verif Require Import FloatSpec FloatRoundSpec FloatMathSpec FloatBits.
Local Open Scope Z_scope.

Definition std_modf_ok (f : fmt) (std_modf : Z -> Z * Z) : Prop :=
  forall a, pattern f a -> modf_result false f (decode f a) (decode f (fst (std_modf a))) (decode f (snd (std_modf a))).
(* one f units are 1: m / one f is the integral part of the magnitude *)
Definition std_trunc_ok (f : fmt) (std_trunc : Z -> Z) : Prop :=
  forall a, pattern f a -> pattern f (std_trunc a) /\
    match decode f a with
    | DNaN => decode f (std_trunc a) = DNaN
    | DInf s => decode f (std_trunc a) = DInf s
    | DFin s m => exists s', decode f (std_trunc a) = DFin s' (m / one f * one f) /\ (m / one f <> 0 -> s' = s)
    end.
Definition std_isinf_ok (f : fmt) (std_isinf : Z -> bool) : Prop :=
  forall a, pattern f a -> (std_isinf a = true <-> exists s, decode f a = DInf s).
(* r has the magnitude of x and the sign of y *)
Definition copysign_result (f : fmt) (x y r : Z) : Prop :=
  pattern f r /\ r mod 2 ^ (fw f - 1) = x mod 2 ^ (fw f - 1) /\ sign_of f r = sign_of f y.
Definition std_copysign_ok (f : fmt) (std_copysign : Z -> Z -> Z) : Prop :=
  forall a b, pattern f a -> pattern f b -> copysign_result f a b (std_copysign a b).
