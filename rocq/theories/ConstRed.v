(* The reductions of simd.h as the user calls them: an element-wise loop when the
   compiler knows the mask, the code of the ABI otherwise. *)
From Coq Require Import List ZArith Bool Arith.
From Verif Require Import Prelude.
Import ListNotations.

(* for (i in is) if (test i) return r; helper for simd.h 4629-4745 *)
Fixpoint loop_return (test : nat -> bool) (r : bool) (is : list nat) : option bool :=
  match is with
  | [] => None
  | i :: is => if test i then Some r else loop_return test r is
  end.
(* the value returned after the loop; helper for simd.h 4629-4745 *)
Definition or_else (o : option bool) (r : bool) : bool :=
  match o with Some x => x | None => r end.

(* k is operator[]; n = simd_size_v *)
(* simd.h 4629-4641: all_of, constant path *)
Definition c_all_of (k : nat -> bool) (n : nat) : bool :=
  or_else (loop_return (fun i => negb (k i)) false (seq 0 n)) true.

(* simd.h 4645-4657: any_of, constant path *)
Definition c_any_of (k : nat -> bool) (n : nat) : bool :=
  or_else (loop_return k true (seq 0 n)) false.

(* simd.h 4661-4673: none_of, constant path *)
Definition c_none_of (k : nat -> bool) (n : nat) : bool :=
  or_else (loop_return k false (seq 0 n)) true.

(* simd.h 4677-4689: some_of, constant path: neighbours that differ *)
Definition c_some_of (k : nat -> bool) (n : nat) : bool :=
  or_else (loop_return (fun i => xorb (k i) (k (i - 1))) true (seq 1 (n - 1))) false.

(* simd.h 4693-4704: popcount, constant path: ((k[0] != 0) + ... + (k[n-1] != 0)) *)
Definition c_popcount (k : nat -> bool) (n : nat) : nat :=
  fold_right (fun i a => (if k i then 1 else 0) + a) 0 (seq 0 n).

(* simd.h 4707-4724: find_first_set, constant path: min of k[i] ? i : n; None is
   __invoke_ub *)
Definition c_find_first_set (k : nat -> bool) (n : nat) : option nat :=
  let r := fold_right Nat.min n (map (fun i => if k i then i else n) (seq 0 n)) in
  if n <=? r then None else Some r.

(* simd.h 4727-4744: find_last_set, constant path: max of k[i] ? i : -1 *)
Definition c_find_last_set (k : nat -> bool) (n : nat) : option Z :=
  let r := fold_right Z.max (-1)%Z (map (fun i => if k i then Z.of_nat i else (-1)%Z) (seq 0 n)) in
  if (r <? 0)%Z then None else Some r.

(* simd_scalar.h 723-775: the run-time reductions of scalar masks, k the bool *)
Definition s_all_of (k : bool) : bool := k.
(* simd_scalar.h 723-775 *)
Definition s_any_of (k : bool) : bool := k.
(* simd_scalar.h 723-775 *)
Definition s_none_of (k : bool) : bool := negb k.
(* simd_scalar.h 723-775 *)
Definition s_some_of (k : bool) : bool := false.
(* simd_scalar.h 723-775 *)
Definition s_popcount (k : bool) : nat := if k then 1 else 0.
(* simd_scalar.h 723-775 *)
Definition s_find_first_set (k : bool) : nat := 0.
(* simd_scalar.h 723-775 *)
Definition s_find_last_set (k : bool) : Z := 0%Z.

(* simd.h 4391-4420 (simd_mask::operator[]) and 2515-2521 (_SimdWrapper::operator[]):
   element i of a vector mask is lane i compared with zero *)
Definition v_get (x : list Z) (i : nat) : bool := negb (nth i x 0 =? 0)%Z.
