(* Vocabulary for loads and stores, independent of how registers are moved. *)
From Coq Require Import List Arith Bool.
From Verif Require Import Mem.
Import ListNotations.

(* the objects __mem[j] exist for all selected j (nothing is said about others) *)
Definition accessible {A} (m : mem A) (sel : nat -> bool) : Prop :=
  forall j, sel j = true -> m j <> None.

(* exactly the selected cells are written, cell j with val j *)
Definition wrote {A} (m m' : mem A) (sel : nat -> bool) (val : nat -> option A) : Prop :=
  forall j, m' j = if sel j then val j else m j.

(* the first n elements *)
Definition below (n : nat) : nat -> bool := fun j => j <? n.
(* those of them the mask selects *)
Definition selected (n : nat) (k : list bool) : nat -> bool := fun j => (j <? n) && nth j k false.

(* no padding lane of the mask register is set; true in particular if the mask
   register has no padding (length k <= n) *)
Definition clean_mask (n : nat) (k : list bool) : Prop := forall i, n <= i -> nth i k false = false.
