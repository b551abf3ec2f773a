(* Model of _SmartReference, the type of x[i], and of the _S_set functions it
   writes with.  /repo/experimental/bits/simd.h, simd_builtin.h, simd_scalar.h,
   simd_fixed_size.h.

   A program works on numbered simd and simd_mask objects and on numbered
   ordinary variables.  Not modelled: which argument types the templates accept
   (_ValuePreservingOrInt), noexcept. *)
From Coq Require Import List Arith Bool ZArith.
From Verif Require Import Prelude BitMask Abi Fixed FixedSpec RefsSpec.
Import ListNotations.

(* what differs between builds and evaluation contexts; helper for simd.h 3985-4160 *)
Record config := {
  const_eval : bool;                     (* __builtin_is_constant_evaluated() *)
  aliasing : bool;                       (* _GLIBCXX_SIMD_USE_ALIASING_LOADS, simd_detail.h 274 *)
  scalar_first : nat * nat -> bool       (* __is_scalar_abi<_Abi0>() of a chunk *)
}.

(* the _M_data member of a simd or simd_mask; n is size(); helper for simd.h 3985-4160 *)
Inductive obj (A : Type) :=
(* simd_scalar.h 96: simd<T, scalar>: one value *)
| OScalar (a : A)
(* simd_builtin.h 812, simd.h 2446-2530: simd<T, _VecBuiltin / _VecBltnBtmsk>: a
   vector register, with padding if it is longer than n *)
| OVec (n : nat) (lanes : list A)
(* simd_fixed_size.h 1299, 325-337: simd<T, fixed_size<n>> *)
| OTuple (ar : isa) (t : elem) (n : nat) (x : tuple A)
(* simd_scalar.h 97: simd_mask<T, scalar>: one bool *)
| OScalarMask (b : bool)
(* simd_builtin.h 996: simd_mask<T, _VecBuiltin>: a register of n integers of w bits (as unsigned
   numbers), non-zero for true *)
| OVecMask (n w : nat) (lanes : list Z)
(* simd_builtin.h 1110, simd.h 2345-2390: simd_mask<T, _VecBltnBtmsk>: an integer of w bits *)
| OBitMask (n w : nat) (word : Z)
(* simd_fixed_size.h 1296: simd_mask<T, fixed_size<n>>: _SanitizedBitMask<n> *)
| OFixedMask (n : nat) (b : bitmask).
Arguments OScalar {A}. Arguments OVec {A}. Arguments OTuple {A}. Arguments OScalarMask {A}.
Arguments OVecMask {A}. Arguments OBitMask {A}. Arguments OFixedMask {A}.

(* simd.h 3995-4001: _SmartReference::_M_read, with the operator[] of the
   _M_data member: simd.h 2369-2370 (bool wrapper), 2516-2517 (vector wrapper;
   the conversion of a lane to bool for masks), 1177-1191 (_BitMask),
   simd_fixed_size.h 592-612 (_SimdTuple).  [None]: no such lane. *)
Definition ref_read {A} (c : config) (o : obj A) (i : nat) : option (val A) :=
  match o with
  | OScalar a => Some (Num a)
  | OVec _ l => option_map Num (nth_error l i)
  | OTuple _ _ _ x => option_map Num (if aliasing c then t_get x i
                                      else t_get_noalias (scalar_first c) x i)
  | OScalarMask b => Some (Bool b)
  | OVecMask _ _ l => option_map (fun x => Bool (negb (x =? 0)%Z)) (nth_error l i)
  | OBitMask _ w x => if i <? w
      then Some (Bool (negb (Z.land x (Z.shiftl 1 (Z.of_nat i)) =? 0)%Z)) else None
  | OFixedMask n b => Some (Bool (bm_get n b i))
  end.

(* simd_builtin.h 2844-2860: the lane written for a bool: -x converted to the
   unsigned view of the lane *)
Definition mask_lane (w : nat) (x : bool) : Z := ((- b2z x) mod 2 ^ Z.of_nat w)%Z.

(* simd.h 4003-4005: _SmartReference::_M_write, with the _S_set of the ABI:
   simd_scalar.h 587-594 (simd), 702-707 (mask); simd_builtin.h 2449-2452 and
   simd.h 2523-2524 (vector); simd_builtin.h 2838-2862 (mask; the bool wrapper
   uses _M_set, simd.h 2377-2383); simd_fixed_size.h 1770-1774 and 614-629
   (tuple), 1989-1992 (_BitMask).  [None]: no such lane, or a value of the
   wrong type. *)
Definition ref_write {A} (c : config) (o : obj A) (i : nat) (v : val A) : option (obj A) :=
  match o, v with
  | OScalar _, Num a => Some (OScalar a)
  | OVec n l, Num a => if i <? length l then Some (OVec n (upd l i a)) else None
  | OTuple ar t n x, Num a =>
      option_map (OTuple ar t n) (if aliasing c then t_set x i a else t_set_noalias x i a)
  | OScalarMask _, Bool b => Some (OScalarMask b)
  | OVecMask n w l, Bool b =>
      if const_eval c
      then (* __generate_from_n_evaluations<_Np>: a new register; its lanes
              beyond n are zero *)
           Some (OVecMask n w (map (fun j => if i =? j then mask_lane w b else nth j l 0%Z) (seq 0 n)
                               ++ repeat 0%Z (length l - n)))
      else if i <? length l then Some (OVecMask n w (upd l i (mask_lane w b))) else None
  | OBitMask n w x, Bool b =>
      if i <? w
      then Some (OBitMask n w
             (if b then Z.lor x (Z.shiftl 1 (Z.of_nat i))
              else Z.land x (Z.lnot (Z.shiftl 1 (Z.of_nat i)))))
      else None
  | OFixedMask n k, Bool b => Some (OFixedMask n (fsm_set n k i b))
  | _, _ => None
  end.

(* ------------------------------------------------------------------ *)
(* the program state: objects and ordinary variables; helper for simd.h 3985-4160 *)
Record state (A : Type) := State { objs : nat -> option (obj A); locals : nat -> option (val A) }.
Arguments State {A}. Arguments objs {A}. Arguments locals {A}.

(* simd.h 4990-4991, 4395-4400: operator[] makes a _SmartReference to _M_data
   and the index; 4018-4019: its conversion to value_type.  For a variable: its
   value. *)
Definition read {A} (c : config) (s : state A) (l : loc) : option (val A) :=
  match l with
  | Elem o i => bind (objs s o) (fun x => ref_read c x i)
  | Var v => locals s v
  end.

(* simd.h 4003-4005: _M_write; for a variable the builtin assignment *)
Definition write {A} (c : config) (s : state A) (l : loc) (v : val A) : option (state A) :=
  match l with
  | Elem o i =>
      bind (objs s o) (fun x => bind (ref_write c x i v) (fun x' =>
      Some (State (fun p => if p =? o then Some x' else objs s p) (locals s))))
  | Var n =>
      bind (locals s n) (fun old =>
      if same_type old v
      then Some (State (objs s) (fun m => if m =? n then Some v else locals s m)) else None)
  end.

(* simd.h 4003-4005 *)
Definition arg_value {A} (c : config) (s : state A) (a : arg A) : option (val A) :=
  match a with Lit v => Some v | Load l => read c s l end.

(* simd.h 4021-4027: operator=; the argument is converted when _S_set is called *)
Definition ref_assign {A} (c : config) (s : state A) (cv : val A -> option (val A)) (l : loc) (a : arg A) : option (state A * result A) :=
  bind (arg_value c s a) (fun x => bind (cv x) (fun v => bind (write c s l v) (ret (RRef l)))).
(* simd.h 4029-4042: operator op= *)
Definition ref_op_assign {A} (c : config) (s : state A) (f : val A -> val A -> option (val A)) (l : loc) (a : arg A) : option (state A * result A) :=
  bind (read c s l) (fun lhs =>
  bind (arg_value c s a) (fun x => bind (f lhs x) (fun v => bind (write c s l v) (ret (RRef l))))).
(* simd.h 4048-4056, 4070-4078: operator++(), operator--() *)
Definition ref_pre {A} (c : config) (s : state A) (f : val A -> option (val A)) (l : loc) : option (state A * result A) :=
  bind (read c s l) (fun x => bind (f x) (fun x' => bind (write c s l x') (ret (RRef l)))).
(* simd.h 4058-4068, 4080-4090: operator++(int), operator--(int) *)
Definition ref_post {A} (c : config) (s : state A) (f : val A -> option (val A)) (l : loc) : option (state A * result A) :=
  bind (read c s l) (fun r => bind (f r) (fun x => bind (write c s l x) (ret (RVal r)))).
(* simd.h 4092-4101: swap of two references; 4103-4113: of a variable and a
   reference *)
Definition ref_swap {A} (c : config) (s : state A) (a b : loc) : option (state A * result A) :=
  bind (read c s a) (fun tmp =>
  bind (read c s b) (fun vb => bind (write c s a vb) (fun s1 =>
  bind (write c s1 b tmp) (ret RVoid)))).
(* simd.h 4115-4125: swap of a reference and a variable: b is read when it is
   moved into a *)
Definition ref_swap_var {A} (c : config) (s : state A) (a b : loc) : option (state A * result A) :=
  bind (read c s a) (fun tmp =>
  bind (read c s b) (fun vb => bind (write c s a vb) (fun s1 =>
  bind (write c s1 b tmp) (ret RVoid)))).

(* helper for simd.h 3985-4160 *)
Definition is_var (l : loc) : bool := match l with Var _ => true | _ => false end.

(* overload resolution between the three swaps (swap of two variables is
   std::swap, the same three steps); helper for simd.h 3985-4160 *)
Definition run {A} (c : config) (s : state A) (p : stmt A) : option (state A * result A) :=
  match p with
  | Assign cv l a => ref_assign c s cv l a
  | OpAssign f l a => ref_op_assign c s f l a
  | PreStep f l => ref_pre c s f l
  | PostStep f l => ref_post c s f l
  | Swap l r => if is_var r then ref_swap_var c s l r else ref_swap c s l r
  end.

(* a sequence of statements; helper for simd.h 3985-4160 *)
Fixpoint run_all {A} (c : config) (s : state A) (p : list (stmt A)) : option (state A * list (result A)) :=
  match p with
  | [] => Some (s, [])
  | q :: p => bind (run c s q) (fun sr => bind (run_all c (fst sr) p) (fun sl =>
              Some (fst sl, snd sr :: snd sl)))
  end.

(* ------------------------------------------------------------------ *)
(* Objects as they are in memory, and their elements; not code;
   helper for simd.h 3985-4160 *)

Definition osize {A} (o : obj A) : nat :=
  match o with
  | OScalar _ | OScalarMask _ => 1
  | OVec n _ | OTuple _ _ n _ | OVecMask n _ _ | OBitMask n _ _ | OFixedMask n _ => n
  end.

(* helper for simd.h 3985-4160 *)
Definition obj_ok {A} (o : obj A) : Prop :=
  match o with
  | OScalar _ | OScalarMask _ => True
  | OVec n l => n <= length l
  | OTuple ar t n x => fixed_size_type ar t n /\ is_fixed ar t n x
  | OVecMask n w l => n <= length l /\ 1 <= w /\ Forall (fun x => 0 <= x < 2 ^ Z.of_nat w)%Z l
  | OBitMask n w x => n <= w /\ (0 <= x < 2 ^ Z.of_nat w)%Z
  | OFixedMask n b => 1 <= n /\ bm_clean n b
  end.

(* element i: the lane, the i-th element of the tuple's chunks, whether the
   lane is not zero, bit i; helper for simd.h 3985-4160 *)
Definition element {A} (o : obj A) (i : nat) : option (val A) :=
  if i <? osize o then
    match o with
    | OScalar a => Some (Num a)
    | OVec _ l => option_map Num (nth_error l i)
    | OTuple _ _ _ x => option_map Num (nth_error (telems x) i)
    | OScalarMask b => Some (Bool b)
    | OVecMask _ _ l => option_map (fun x => Bool (negb (x =? 0)%Z)) (nth_error l i)
    | OBitMask _ _ x => Some (Bool (Z.testbit x (Z.of_nat i)))
    | OFixedMask n b => Some (Bool (bm_bit n b i))
    end
  else None.

(* the state as independent variables; helper for simd.h 3985-4160 *)
Definition scalars {A} (s : state A) : vars A := fun l =>
  match l with
  | Elem o i => bind (objs s o) (fun x => element x i)
  | Var v => locals s v
  end.
(* helper for simd.h 3985-4160 *)
Definition state_ok {A} (s : state A) : Prop := forall o x, objs s o = Some x -> obj_ok x.
