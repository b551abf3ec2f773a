(* Widening integers on x86 without SSE4.1: the unpack sequences of __convert_all
   (/repo/experimental/bits/simd_builtin.h 555-757), used by casts
   (simd_converter.h 155-226) and converting stores (simd_builtin.h 1525-1536,
   1602-1621).

   Bytes and expressions as in XConv.v.  A register of n elements has
   2^ceil(log2 n) * sizeof bytes, at most 16; every _To has 16 bytes (the callers
   ask for no other). *)
From Coq Require Import List ZArith Bool Arith.
From Verif Require Import Prelude BitMask XConv.
Import ListNotations.
Local Open Scope nat_scope.

(* lanes of __vector_type_t<_Tp, n> (simd.h 1348-1370, without i386) *)
Definition reg_lanes (n : nat) : nat := Nat.max 2 (bit_ceil n).

Section Widen.
Variable ft : xfeat.
(* __builtin_constant_p for the registers converted on the way (cpi) and for
   those converted last (cpo): simd_builtin.h 504 *)
Variables cpi cpo : bool.

(* simd_builtin.h 497-519: __vector_convert<_To> of one register of N elements, all
   of them used *)
Definition vector_convert (cp : bool) (t : ety) (N : nat) (u : ety) (M : nat) (v : cexp) : option cexp :=
  if cp then fallback t N u M v else convert_x86 12 ft t N u M [v].

(* a list of conversions, all of which have to compile;
   helper for simd_builtin.h 555-757, simd_converter.h 155-226, simd_builtin.h 1525-1536, 1602-1621 *)
Fixpoint all_some {A} (l : list (option A)) : option (list A) :=
  match l with
  | [] => Some []
  | Some x :: r => option_map (cons x) (all_some r)
  | None :: _ => None
  end.

(* lines 591-597: the branch is taken; 600: _ToT *)
Definition unpacks (t u : ety) : bool :=
  negb (sse41 ft) && negb (is_fp t) && (esize t <? esize u)
  && negb ((esize t =? 4) && is_fp u && (esize u =? 8)).

(* lines 618-624: __make_array; at most two registers are asked for *)
Definition make_array (np : nat) (x0 x1 : cexp) : option (list cexp) :=
  if np <=? 2 then Some (firstn np [x0; x1]) else None.

(* shifts of lanes of 4 bytes by k bytes, and by 31 bits;
   helper for simd_builtin.h 555-757, simd_converter.h 155-226, simd_builtin.h 1525-1536, 1602-1621 *)
Definition sra4 (k : nat) := srai 4 k 16.
(* simd_builtin.h 618-624 *)
Definition sra4_all : cexp -> cexp := each 4 16 (fun o => repeat (Sg (o + 3)) 4).

(* __convert_all<_To, _NParts>(__v), lines 559-799, for a register v of n elements
   of type t; np: _NParts, 0 if not given.  Fuel: depth of the calls. *)
Fixpoint convert_all (fuel : nat) (t : ety) (n : nat) (u : ety) (np : nat) (v : cexp) : option (list cexp) :=
  match fuel with
  | 0 => None
  | S f =>
    let M := 16 / esize u in
    let L := reg_lanes n in
    let Np := if np =? 0 then n / M else np in
    (* 607-616: __adjust to a register of k elements *)
    let adjust k := ibc ft (L * esize t) (reg_lanes k * esize t) v in
    (* 617 *)
    let vi := to_intrin (L * esize t) v in
    let zero := CPerm (repeat Z0 16) vi in
    let each_part (g : nat -> option cexp) := all_some (map g (seq 0 Np)) in
    let last_part (l : list cexp) (w : ety) (i : nat) : option cexp :=
      match nth_error l (i / 2) with
      | Some e => match convert_all f w (16 / esize w) u 0 e with
                  | Some r => nth_error r (i mod 2)
                  | None => None
                  end
      | None => None
      end in
    if np =? 1 then
      (* 582-589; not called with more than one register's worth of elements *)
      if n <=? M then option_map (fun e => [e]) (vector_convert cpi t L u M v) else None
    else if negb (unpacks t u) then
      (* 758-789: no other branch follows for the registers converted here *)
      if (np =? 0) && (M <? n) then
        each_part (fun i => vector_convert cpo t M u M (part (i * M * esize t) (M * esize t) v))
      else None
    else if Np =? 0 then Some []                                           (* 626-627 *)
    else if (esize t =? 1) && (esize u =? 2) then                          (* 628-639 *)
      if negb (is_sg t) then make_array Np (unpacklo 1 16 vi zero) (unpackhi 1 16 vi zero)
      else make_array Np (srai 2 1 16 (unpacklo 1 16 vi vi)) (srai 2 1 16 (unpackhi 1 16 vi vi))
    else if (esize t =? 2) && (esize u =? 4) then                          (* 640-659 *)
      if is_fp u then
        match convert_all f t (Np * 4) (EI 4 true) Np (adjust (Np * 4)) with
        | Some ints => each_part (fun i => match nth_error ints i with
                                           | Some e => vector_convert cpo (EI 4 true) 4 u M e
                                           | None => None
                                           end)
        | None => None
        end
      else if negb (is_sg t) then make_array Np (unpacklo 2 16 vi zero) (unpackhi 2 16 vi zero)
      else make_array Np (sra4 2 (unpacklo 2 16 vi vi)) (sra4 2 (unpackhi 2 16 vi vi))
    else if (esize t =? 4) && (esize u =? 8) && negb (is_fp u) then        (* 660-670 *)
      if negb (is_sg t) then make_array Np (unpacklo 4 16 vi zero) (unpackhi 4 16 vi zero)
      else make_array Np (unpacklo 4 16 vi (sra4_all vi)) (unpackhi 4 16 vi (sra4_all vi))
    else if (esize t =? 1) && (4 <=? esize u) && is_sg t then              (* 682-711 *)
      let vv0 := unpacklo 1 16 vi vi in
      let vv1 := unpackhi 1 16 vi vi in
      let vvvv := [unpacklo 2 16 vv0 vv0; unpackhi 2 16 vv0 vv0; unpacklo 2 16 vv1 vv1; unpackhi 2 16 vv1 vv1] in
      if esize u =? 4 then
        each_part (fun i => match nth_error vvvv i with
                            | Some e => vector_convert cpo (EI 4 true) 4 u M (sra4 3 e)
                            | None => None
                            end)
      else if negb (is_fp u) then
        each_part (fun i => match nth_error vvvv (i / 2) with
                            | Some e => Some (if i mod 2 =? 0 then unpacklo 4 16 (sra4 3 e) (sra4_all e)
                                              else unpackhi 4 16 (sra4 3 e) (sra4_all e))
                            | None => None
                            end)
      else
        each_part (fun i => match nth_error vvvv (i / 2) with
                            | Some e => let int4 := sra4 3 e in
                                        vector_convert cpo (EI 4 true) 4 u M
                                          (if i mod 2 =? 0 then int4 else unpackhi 8 16 int4 int4)
                            | None => None
                            end)
    else if (esize t =? 1) && (esize u =? 4) then                          (* 712-721 *)
      match convert_all f t ((Np + 1) / 2 * 8) (EI 2 (is_sg t)) 0 (adjust ((Np + 1) / 2 * 8)) with
      | Some shorts => each_part (last_part shorts (EI 2 (is_sg t)))
      | None => None
      end
    else if (esize t =? 2) && (esize u =? 8) && is_sg t && negb (is_fp u) then   (* 722-743 *)
      let vv0 := unpacklo 2 16 vi vi in
      let vv1 := unpackhi 2 16 vi vi in
      let vvvv := [unpacklo 4 16 (sra4 2 vv0) (sra4_all vv0); unpackhi 4 16 (sra4 2 vv0) (sra4_all vv0);
                   unpacklo 4 16 (sra4 2 vv1) (sra4_all vv1); unpackhi 4 16 (sra4 2 vv1) (sra4_all vv1)] in
      each_part (nth_error vvvv)
    else if (esize t <=? 2) && (esize u =? 8) then                         (* 744-755 *)
      let w := EI 4 (is_sg t || is_fp u) in
      match convert_all f t ((Np + 1) / 2 * 4) w 0 (adjust ((Np + 1) / 2 * 4)) with
      | Some ints => each_part (last_part ints w)
      | None => None
      end
    else None                                                              (* 756 *)
  end.
End Widen.

(* the register v as the only argument;
   helper for simd_builtin.h 555-757, simd_converter.h 155-226, simd_builtin.h 1525-1536, 1602-1621 *)
Definition widen_register (ft : xfeat) (cpi cpo : bool) (t : ety) (n : nat) (u : ety) (np : nat) : option (list cexp) :=
  convert_all ft cpi cpo 6 t n u np (CArg 0).
