(* Specification of C69: what the C standard requires of the predicates, and
   std::hypot; hypot_result is in HypotSpec.v, the relations are in FloatSpec.v. *)
From Coq Require Import ZArith List Bool.
From Verif Require Import Abi Fixed FloatSpec FloatRoundSpec FloatBits HypotSpec FixedHypot.
Import ListNotations.

(* std::hypot is at least as accurate as the vector code *)
Definition std_hypot_ok (f : fmt) (md : rmode) (std_hypot : Z -> Z -> Z) : Prop :=
  forall a b, pattern f a -> pattern f b -> hypot_result f md 5 2 [decode f a; decode f b] (decode f (std_hypot a b)).

(* C 7.12.3 *)
Definition pred1_value (p : pred1) (f : fmt) (a : Z) : bool :=
  match p with
  | P_isinf => is_inf f (decode f a)
  | P_isfinite => is_finite f (decode f a)
  | P_isnan => is_nan f (decode f a)
  | P_isnormal => is_normal f (decode f a)
  | P_signbit => sign_of f a
  end.
(* C 7.12.14 *)
Definition pred2_value (p : pred2) (f : fmt) (a b : Z) : bool :=
  match p with
  | P_ord RGreater => greater (decode f a) (decode f b)
  | P_ord RGreaterEqual => greater_equal (decode f a) (decode f b)
  | P_ord RLess => less (decode f a) (decode f b)
  | P_ord RLessEqual => less_equal (decode f a) (decode f b)
  | P_islessgreater => less_greater (decode f a) (decode f b)
  | P_isunordered => unordered (decode f a) (decode f b)
  end.
Definition std_pred1_ok (f : fmt) (std : pred1 -> Z -> bool) : Prop :=
  forall p a, pattern f a -> std p a = pred1_value p f a.
Definition std_pred2_ok (f : fmt) (std : pred2 -> Z -> Z -> bool) : Prop :=
  forall p a b, pattern f a -> pattern f b -> std p a b = pred2_value p f a b.

(* every lane of every register of x holds a bit pattern of the format *)
Definition all_lanes (f : fmt) (x : tuple Z) : Prop := Forall (fun c => Forall (pattern f) (creg c)) x.
