(* Specification of C67: the element types float and double of a fixed_size
   simd and their formats; frexp_result and logb_result are in FloatMathSpec.v. *)
From Coq Require Import ZArith.
From Verif Require Import Abi Fixed FloatSpec FloatMathSpec FloatBits.

Definition elem_format (t : elem) (f : fmt) : Prop :=
  (t = TFloat /\ f = binary32) \/ (t = TDouble /\ f = binary64).

(* the elements of x are bit patterns of the format *)
Definition all_patterns (f : fmt) (x : tuple Z) : Prop :=
  forall i a, t_get x i = Some a -> pattern f a.

(* what the C standard requires of std::frexp and std::logb *)
Definition std_frexp_ok (f : fmt) (std_frexp : Z -> Z * Z) : Prop :=
  forall a, pattern f a -> frexp_result f (decode f a) (decode f (fst (std_frexp a))) (snd (std_frexp a)).
Definition std_logb_ok (f : fmt) (std_logb : Z -> Z) : Prop :=
  forall a, pattern f a -> logb_result f (decode f a) (decode f (std_logb a)).
