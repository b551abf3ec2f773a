(* Vocabulary for the reduction properties. *)
From Coq Require Import List Arith Bool ZArith.
From Verif Require Import Abi Reduce.
Import ListNotations.

(* left fold without initial value *)
Definition fold1 {A} (op : A -> A -> A) (l : list A) : option A :=
  match l with [] => None | a :: r => Some (fold_left op r a) end.

Definition assoc_comm {A} (op : A -> A -> A) : Prop :=
  (forall a b c, op a (op b c) = op (op a b) c) /\ (forall a b, op a b = op b a).
Definition neutral {A} (op : A -> A -> A) (e : A) : Prop := forall a, op a e = a.

(* a binary operation on registers that computes op on the n active lanes and
   anything on the others *)
Definition lanewise2 {A} (op : A -> A -> A) (F : nat -> list A -> list A -> list A) : Prop :=
  forall n a b, n <= length a -> length b = length a ->
    length (F n a b) = length a /\
    forall i d, i < n -> nth i (F n a b) d = op (nth i a d) (nth i b d).

(* the selected elements, in order *)
Fixpoint select {A} (k : list bool) (x : list A) : list A :=
  match k, x with
  | true :: k', a :: x' => a :: select k' x'
  | false :: k', _ :: x' => select k' x'
  | _, _ => []
  end.

(* operator< of a totally ordered element type *)
Definition strict_total {A} (lt : A -> A -> bool) : Prop :=
  (forall a, lt a a = false) /\
  (forall a b c, lt a b = true -> lt b c = true -> lt a c = true) /\
  (forall a b, lt a b = false -> lt b a = false -> a = b).
(* m is the least element of l *)
Definition is_least {A} (lt : A -> A -> bool) (l : list A) (m : A) : Prop :=
  In m l /\ forall a, In a l -> lt a m = false.
Definition is_greatest {A} (lt : A -> A -> bool) (l : list A) (m : A) : Prop :=
  In m l /\ forall a, In a l -> lt m a = false.

(* [alg.min.max], [alg.clamp] of the C++ standard *)
Definition std_min {A} (lt : A -> A -> bool) (a b : A) : A := if lt b a then b else a.
Definition std_max {A} (lt : A -> A -> bool) (a b : A) : A := if lt a b then b else a.
Definition std_minmax {A} (lt : A -> A -> bool) (a b : A) : A * A := if lt b a then (b, a) else (a, b).
Definition std_clamp {A} (lt : A -> A -> bool) (v lo hi : A) : A :=
  if lt v lo then lo else if lt hi v then hi else v.

(* values of a floating-point type other than NaN; finite values are integer
   multiples of the smallest subnormal, so an integer identifies each (the two
   zeros compare equal and are identified) *)
Inductive fval := NInf | Fin (z : Z) | PInf.
Definition flt (a b : fval) : bool :=
  match a, b with
  | NInf, NInf => false
  | NInf, _ => true
  | Fin x, Fin y => (x <? y)%Z
  | Fin _, PInf => true
  | _, _ => false
  end.

(* l is the number of lanes of the register that stores n elements of type t *)
Definition reg_type (I : isa) (t : elem) (n l : nat) : Prop :=
  n = 1 /\ 1 <= l \/
  2 <= n /\ (esize t = 1 \/ esize t = 2 \/ esize t = 4 \/ esize t = 8) /\ l = vlanes I t n.

(* what the library knows about op is right: plus<> has neutral element z, ... *)
Definition op_ok {A} (op : A -> A -> A) (o : reduce_op A) : Prop :=
  match o with RPlus z => neutral op z | RMultiplies e => neutral op e | ROther => True end.
