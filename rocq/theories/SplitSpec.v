(* Vocabulary for split and concat. *)
From Coq Require Import List Arith.
From Verif Require Import Prelude Abi Fixed Convert ConvertSpec.
Import ListNotations.

(* x[0], ..., x[n-1] as operator[] returns them *)
Definition elements {A} (n : nat) (x : tuple A) : list (option A) := map (t_get x) (seq 0 n).

(* fixed_size<V::size()> would use the single register of V as well; false only
   for 8-byte integer vectors on 32-bit x86 *)
Definition single_register (I : isa) (t : elem) (b : abi) : Prop :=
  match b with
  | AScalar | AFixed _ => True
  | _ => exists p, storage_shape I t (abi_size t b) = Some [p]
  end.
