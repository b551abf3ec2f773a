(* Specification vocabulary for masks: a mask of N elements is a list of N
   booleans.  Nothing here refers to words or bits. *)
From Coq Require Import List ZArith Bool Arith.
From Verif Require Import Prelude.
Import ListNotations.

(* number of true elements *)
Definition count_true (l : list bool) : nat := length (filter (fun x => x) l).

(* every / some element is true *)
Definition all_true (l : list bool) : bool := forallb (fun x => x) l.
Definition any_true (l : list bool) : bool := existsb (fun x => x) l.

(* i is the index of the first / last true element *)
Definition is_first_true (l : list bool) (i : nat) : Prop :=
  nth_error l i = Some true /\ forall j, j < i -> nth_error l j = Some false.
Definition is_last_true (l : list bool) (i : nat) : Prop :=
  nth_error l i = Some true /\ forall j, i < j -> j < length l -> nth_error l j = Some false.

(* indices of the true elements in increasing order *)
Definition true_indices (l : list bool) : list nat :=
  filter (fun i => nth i l false) (seq 0 (length l)).

(* A program over masks of N elements: everything simd_mask offers to compute
   a mask from other masks. *)
Inductive mexpr : Type :=
| EBroadcast (x : bool)                  (* simd_mask(x) *)
| EBitset (l : list bool)                (* simd_mask::__from_bitset *)
| EGen (g : nat -> bool)                 (* generator *)
| ENot (e : mexpr)                       (* !e *)
| EAnd (a b : mexpr)                     (* a & b *)
| EOr (a b : mexpr)                      (* a | b *)
| EXor (a b : mexpr)                     (* a ^ b *)
| ELAnd (a b : mexpr)                    (* a && b *)
| ELOr (a b : mexpr)                     (* a || b *)
| EEq (a b : mexpr)                      (* a == b *)
| ENe (a b : mexpr)                      (* a != b *)
| ESet (a : mexpr) (i : nat) (x : bool)  (* a[i] = x *)
| EAssign (k a b : mexpr)                (* where(k, a) = b *)
| EAssignB (k a : mexpr) (x : bool).     (* where(k, a) = x, x a bool *)

(* subscripts in range, bitsets of the right size *)
Fixpoint mexpr_ok (n : nat) (e : mexpr) : Prop :=
  match e with
  | EBroadcast _ | EGen _ => True
  | EBitset l => length l = n
  | ENot a => mexpr_ok n a
  | EAnd a b | EOr a b | EXor a b | ELAnd a b | ELOr a b | EEq a b | ENe a b =>
      mexpr_ok n a /\ mexpr_ok n b
  | ESet a i _ => mexpr_ok n a /\ i < n
  | EAssign k a b => mexpr_ok n k /\ mexpr_ok n a /\ mexpr_ok n b
  | EAssignB k a _ => mexpr_ok n k /\ mexpr_ok n a
  end.

(* element-wise meaning on lists of booleans *)
Fixpoint mask_meaning (n : nat) (e : mexpr) : list bool :=
  match e with
  | EBroadcast x => repeat x n
  | EBitset l => l
  | EGen g => map g (seq 0 n)
  | ENot a => map negb (mask_meaning n a)
  | EAnd a b | ELAnd a b => map2 andb (mask_meaning n a) (mask_meaning n b)
  | EOr a b | ELOr a b => map2 orb (mask_meaning n a) (mask_meaning n b)
  | EXor a b | ENe a b => map2 xorb (mask_meaning n a) (mask_meaning n b)
  | EEq a b => map2 Bool.eqb (mask_meaning n a) (mask_meaning n b)
  | ESet a i x => upd (mask_meaning n a) i x
  | EAssign k a b =>
      map3 (fun k a b : bool => if k then b else a)
           (mask_meaning n k) (mask_meaning n a) (mask_meaning n b)
  | EAssignB k a x =>
      map2 (fun k a : bool => if k then x else a) (mask_meaning n k) (mask_meaning n a)
  end.
