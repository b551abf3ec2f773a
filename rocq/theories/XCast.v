(* The casts of Convert.v with the conversions of registers of x86: XConv.v for
   __convert_x86 (simd_x86_conversions.h) and SseWiden.v for the widening
   sequences of __convert_all (simd_builtin.h 591-757).  An element is its
   pattern, as in XConv.v. *)
From Coq Require Import List ZArith Bool Arith.
From Verif Require Import Prelude FloatRoundSpec Abi Fixed Convert XConv SseWiden.
Import ListNotations.
Local Open Scope nat_scope.

(* the element type as the selection of registers sees it (Abi.v);
   helper for simd_builtin.h 591-757 *)
Definition elem_of (t : ety) : elem :=
  match t with EI w _ => TInt w | EF w => if w =? 4 then TFloat else TDouble end.

(* A vector of elements of w bytes in memory order, and back: n elements, junk
   for an undefined one.  (reinterpret casts: __vector_bitcast, simd.h 1550-1571) *)
Definition reg_bytes (w : nat) (l : list Z) : list (option Z) := flat_map (fun p => le_split w (Some p)) l.
(* simd.h 1550-1571 *)
Definition read_lanes (junk : Z) (w n : nat) (l : list (option Z)) : list Z :=
  map (fun j => match le_val (lane w l j) with Some p => p | None => junk end) (seq 0 n).

Section X86.
(* the extensions, _M_is_constprop() in __convert_all (SseWiden.v), the types *)
Variables (ft : xfeat) (cpi cpo : bool) (t u : ety).
(* what an undefined static_cast and an undefined lane yield; rounding mode *)
Variables (ub : Z -> Z) (junk : Z) (md : rmode).

(* __vector_convert calls __convert_x86<_To>(registers...): simd_builtin.h 497-519.
   No lanes if that is ill-formed. *)
Definition convert_call (full : nat) (xs : list (list Z)) : list Z :=
  match convert_registers ft t (length (hd [] xs)) u full (length xs) with
  | Some e => read_lanes junk (esize u) full (ceval ub md (map (reg_bytes (esize t)) xs) e)
  | None => []
  end.
(* __convert_all of a register of n elements: simd_builtin.h 591-757 *)
Definition widen_call (n lanes : nat) (reg : list Z) : list (list Z) :=
  match widen_register ft cpi cpo t n u 0 with
  | Some es => map (fun e => read_lanes junk (esize u) lanes (ceval ub md [reg_bytes (esize t) reg] e)) es
  | None => []
  end.
(* simd.h 2880-2895: static_simd_cast on x86; cp: _M_is_constprop() in
   __vector_convert and __extract_part *)
Definition x86_simd_cast (cp : bool) (I : isa) (a b : abi) (x : tuple Z) : option (tuple Z) :=
  static_simd_cast (lop_sem ub md (OCast t u)) 0%Z 0%Z I (elem_of t) (elem_of u) true (sse41 ft) cp
    convert_call widen_call a b x.
End X86.
