(* Specification of C70: std::fpclassify of one element (C 7.12.3.1); class_of,
   the classes and fp_macro (the FP_ macros) are in FloatSpec.v. *)
From Coq Require Import ZArith.
From Verif Require Import FloatSpec.

Definition std_fpclassify_ok (f : fmt) (std : Z -> Z) : Prop :=
  forall a, pattern f a -> std a = fp_macro (class_of f (decode f a)).
