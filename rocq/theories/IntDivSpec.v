(* When a C++ integer division is defined. *)
From Coq Require Import ZArith.
From Coq Require Import List.
From Verif Require Import X86Lanes IntDiv.
Open Scope Z_scope.

(* the number an element with representation v stands for *)
Definition number_of (signed : bool) (w v : Z) : Z := if signed then sgn w v else v.
(* x / y and x % y are defined: no division by zero, no overflow *)
Definition quotient_ok (signed : bool) (w x y : Z) : Prop :=
  y <> 0 /\ ~ (signed = true /\ x = 2 ^ (w - 1) /\ y = 2 ^ w - 1).
(* what the optimiser claims to know about the n elements of the mask is true *)
Definition knows (kn : known) (n : nat) (k : list bool) : Prop :=
  match kn with
  | KnownNone => forall i, (i < n)%nat -> nth i k false = false
  | KnownAll => forall i, (i < n)%nat -> nth i k false = true
  | Unknown => True
  end.
