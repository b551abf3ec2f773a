(* What C66 says, without the model: elements of a register, registers that hold a mask. *)
From Coq Require Import ZArith List Bool.
Import ListNotations.
Open Scope Z_scope.

(* a vector register: a power of two of bytes, at least one element of n = 1, 2, 4 or 8 *)
Definition register (n : nat) (a : list Z) : Prop :=
  In n [1; 2; 4; 8]%nat /\ (exists p, length a = (2 ^ p)%nat) /\ (n <= length a)%nat /\
  Forall (fun b => 0 <= b < 256) a.
(* the bits of element i: the n bytes from address n * i on, lowest first *)
Definition element (n : nat) (a : list Z) (i : nat) : Z :=
  fold_right (fun b r => b + 2 ^ 8 * r) 0 (firstn n (skipn (n * i) a)).
(* register r is the element-wise result, in all lanes: as long as a, and bit j of element i
   is e i j *)
Definition bitwise (n : nat) (a r : list Z) (e : nat -> Z -> bool) : Prop :=
  register n r /\ length r = length a /\
  forall i j, (n * i + n <= length a)%nat -> 0 <= j < 8 * Z.of_nat n -> Z.testbit (element n r i) j = e i j.
(* all N elements of m are all ones or all zeros, as l says *)
Definition is_mask (n : nat) (m : list Z) (l : list bool) : Prop :=
  register n m /\ (n * length l <= length m)%nat /\
  forall i, (i < length l)%nat -> element n m i = if nth i l false then 2 ^ (8 * Z.of_nat n) - 1 else 0.
(* the lanes behind the elements are zero *)
Definition clean (n : nat) (m : list Z) (N : nat) : Prop :=
  forall i, (N <= i)%nat -> (n * i + n <= length m)%nat -> element n m i = 0.
(* an integer type of w bits *)
Definition of_type (sgn : bool) (w x : Z) : Prop :=
  In w [8; 16; 32; 64] /\ if sgn then - 2 ^ (w - 1) <= x < 2 ^ (w - 1) else 0 <= x < 2 ^ w.
