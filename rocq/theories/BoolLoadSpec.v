(* What loading and storing masks means. *)
From Coq Require Import List Arith Bool.
From Verif Require Import Prelude Mem.
Import ListNotations.

(* the first elements of the array are l; nothing is said about the others, which
   need not exist *)
Definition array (m : mem bool) (l : list bool) : Prop :=
  forall i, i < length l -> m i = Some (nth i l false).

(* the elements that k selects exist in the array *)
Definition readable (m : mem bool) (k : list bool) : Prop :=
  forall i, nth i k false = true -> m i <> None.

(* where(k, x).copy_from(m) for a mask x with the elements l has the elements r *)
Definition merged (m : mem bool) (k l r : list bool) : Prop :=
  length r = length l /\
  forall i, i < length l -> Some (nth i r false) = if nth i k false then m i else Some (nth i l false).

(* where(k, x).copy_to(m) leaves m' *)
Definition stored (m : mem bool) (k l : list bool) (m' : mem bool) : Prop :=
  forall i, m' i = if nth i k false then Some (nth i l false) else m i.
