(* Model of split and concat: /repo/experimental/bits/simd.h 3599-3983, and of
   __extract_part for a _SimdTuple (simd_fixed_size.h 936-1005).

   A simd object is a tuple of registers (Fixed.v), of one register unless its
   ABI is fixed_size. *)
From Coq Require Import List Arith Bool.
From Verif Require Import Prelude BitMask Abi Fixed Mem Convert.
Import ListNotations.

Section Split.
Context {A : Type}.
(* x86: _GLIBCXX_SIMD_X86INTRIN; alias: _GLIBCXX_SIMD_USE_ALIASING_LOADS;
   constant x: x._M_is_constprop(), whatever the optimizer finds; junk: contents
   of an uninitialized register; the others as in Convert.v *)
Variables (zero : A) (I : isa) (t : elem) (x86 sse41 alias : bool) (constant : tuple A -> bool) (junk : nat -> A).
Variables (cx86 : nat -> list (list A) -> list A) (unpack : nat -> nat -> list A -> list (list A)).

(* the elements of an object seen through a pointer to its first one;
   helper for simd.h 3599-3983, simd_fixed_size.h 936-1005 *)
Definition object (x : tuple A) : mem A := fun j => nth_error (obj_mem zero x) j.

(* simd(const _Up*, _Flags): simd.h 5036-5042, with _S_load of the ABI *)
Definition load_simd (b : abi) (m : mem A) : option (tuple A) :=
  match b with
  | AFixed n =>
      match storage_shape I t n with
      | Some s => fs_load (reg_load I t true (fun v => v) zero zero) s 0 m
      | None => None
      end
  | _ => option_map (fun r => [Chunk (abi_size t b) r])
           (reg_load I t true (fun v => v) zero zero (abi_size t b) (abi_full_size I t b) m)
  end.

(* simd(_Fp&& __gen): simd.h 5021-5033, with _S_generator of the ABI; None: __gen
   is undefined for one of the elements *)
Definition generate_simd (b : abi) (g : nat -> option A) : option (tuple A) :=
  match simd_shape I t b, omapm g (seq 0 (abi_size t b)) with
  | Some s, Some l => Some (fs_generator zero (abi_size t b) s (fun i => nth i l zero))
  | _, _ => None
  end.

(* simd_cast<_V>(__x) for _V of the same element type: simd.h 2880-2917 *)
Definition cast_same (a b : abi) (x : tuple A) : option (tuple A) :=
  if abi_eqb a b then Some x
  else static_simd_cast (fun v => v) zero zero I t t x86 sse41 (constant x) cx86 unpack a b x.

(* simd_fixed_size.h 936-1005: __extract_part<_Index, _Total, _Combine>; the result
   is the vector.  None: a static_assert fails, or the result is a _SimdTuple
   (956-957, or 987 with a fixed_size _RetAbi), which no caller accepts *)
Fixpoint tuple_extract (x : tuple A) (index total combine : nat) : option (list A) :=
  match x with
  | [] => None
  | c :: xr =>
      let np := ssize (tshape x) in
      let vpp := np / total in
      let skip := index * vpp in
      let ret := vpp * combine in
      if negb ((index + combine <=? total) && (1 <=? total) && (total <=? np) && (np mod total =? 0)) then None
      else if (index =? 0) && (csize c =? ret) then Some (creg c)                          (* 954-955 *)
      else if (index =? 0) && (total =? combine) then None                                 (* 956-957 *)
      else if (index =? 0) && (ret <=? csize c) then                                       (* 958-960 *)
        Some (firstn (lanes_of I t ret) (creg c ++ repeat zero (lanes_of I t ret)))
      else if csize c <=? skip then                                                        (* 963-976 *)
        if csize c mod vpp =? 0
        then tuple_extract xr (index - csize c / vpp) (total - csize c / vpp) combine
        else tuple_extract xr (skip - csize c) (np - csize c) ret
      else if csize c - skip <? ret then                                                   (* 979-994 *)
        match deduce I t ret with
        | Some (AFixed _) | None => None
        | Some b =>
            if alias then
              reg_load I t true (fun v => v) zero zero ret (abi_full_size I t b) (mshift (object x) skip)
            else option_map (fun l => l ++ repeat zero (abi_full_size I t b - ret))
                   (omapm (fun i => t_get_const x (i + skip)) (seq 0 ret))
        end
      else if csize c mod vpp =? 0 then                                                    (* 997-999 *)
        extract_part I t zero x86 (constant [c]) (csize c) (creg c) combine index (csize c / vpp) combine
      else                                                                                 (* 1000-1002 *)
        extract_part I t zero x86 (constant [c]) (csize c) (creg c) (combine * vpp) skip (csize c) (combine * vpp)
  end.

(* __extract_part<_Index, _Total, _Combine>(__data(__x));
   helper for simd.h 3599-3983, simd_fixed_size.h 936-1005 *)
Definition extract (a : abi) (x : tuple A) (index total combine : nat) : option (list A) :=
  match a, x with
  | AFixed _, _ => tuple_extract x index total combine
  | _, [c] => extract_part I t zero x86 (constant [c]) (csize c) (creg c) combine index total combine
  | _, _ => None
  end.

(* simd.h 3633-3677: __extract_center(_SimdWrapper): the middle half of np elements *)
Definition center_register (np : nat) (reg : list A) : option (list A) :=
  let sz := esize t in
  if negb ((4 <=? np) && (np mod 4 =? 0)) then None                            (* 3638-3639 *)
  else if x86 && have_avx512f I && (sz * np =? 64) then                        (* 3641-3657 *)
    Some (firstn (16 / sz) (skipn (16 / sz) reg) ++ firstn (16 / sz) (skipn (2 * (16 / sz)) reg))
  else if x86 && (sz * np =? 32) && efloating t then                           (* 3658-3661 *)
    Some (firstn (8 / sz) (skipn (8 / sz) reg) ++ firstn (8 / sz) (skipn (16 / sz) reg))
  else if x86 && (sz * length reg =? 32) && (sz * np <=? 32) then              (* 3662-3666 *)
    Some (firstn (16 / sz) (skipn (sz * np / 4 / sz) reg))
  else                                                                         (* 3669-3675 *)
    Some (firstn (np / 2) (skipn (np / 4) reg) ++ map junk (seq (np / 2) (lanes_of I t (np / 2) - np / 2))).

(* simd.h 3680-3690: __extract_center(_SimdTuple) *)
Definition extract_center (a : abi) (x : tuple A) : option (list A) :=
  match x with
  | [c] => center_register (csize c) (creg c)
  | _ => extract a x 1 4 2
  end.

(* sizeof(_V) == sizeof(_Tp) * _V::size() for _V = fixed_size<n> (simd.h 3728) *)
Definition no_padding (n : nat) : bool :=
  match storage_shape I t n with Some s => ssizeof s =? n | None => false end.
(* simd.h 3728 *)
Definition is_scalar_abi (b : abi) : bool := match b with AScalar => true | _ => false end.

(* simd.h 3703-3772: split<_V>(__x), _V = simd<_Tp, b>.  None also if the sizes do
   not match (enable_if, 3707). *)
Definition split_same (b a : abi) (x : tuple A) : option (list (tuple A)) :=
  let n := abi_size t a in
  let k := abi_size t b in
  let parts := n / k in
  if negb ((1 <=? k) && (n =? parts * k)) then None
  else if parts =? 1 then option_map (fun y => [y]) (cast_same a b x)
  else if constant x then                                                       (* 3715-3723 *)
    omapm (fun i => generate_simd b (fun j => t_get x (i * k + j))) (seq 0 parts)
  else if is_fixed_abi a && (is_scalar_abi b || (is_fixed_abi b && no_padding k)) then  (* 3724-3751 *)
    omapm (fun i => if alias then load_simd b (mshift (object x) (i * k))
                    else generate_simd b (fun j => t_get_const x (j + i * k))) (seq 0 parts)
  else if is_scalar_abi b then                                                  (* 3752-3757 *)
    omapm (fun i => option_map (fun v => [Chunk 1 [v]]) (t_get x i)) (seq 0 parts)
  else                                                                          (* 3758-3770 *)
    omapm (fun i => if is_fixed_abi b then generate_simd b (fun j => t_get x (i * k + j))
                    else option_map (fun r => [Chunk k r]) (extract a x i parts 1)) (seq 0 parts).

(* one initializer of simd.h 3857-3894 *)
Inductive piece := Part (index total combine : nat) | Center.

(* simd.h 3857-3894: the size lists with their own code *)
Definition special (np : nat) (sizes : list nat) : option (list piece) :=
  if forallb (fun s => s * 2 =? np) sizes then Some [Part 0 2 1; Part 1 2 1]
  else if list_eq_dec Nat.eq_dec sizes [np / 3; np / 3; np / 3] then Some [Part 0 3 1; Part 1 3 1; Part 2 3 1]
  else if list_eq_dec Nat.eq_dec sizes [2 * np / 3; np / 3] then Some [Part 0 3 2; Part 2 3 1]
  else if list_eq_dec Nat.eq_dec sizes [np / 3; 2 * np / 3] then Some [Part 0 3 1; Part 1 3 2]
  else if list_eq_dec Nat.eq_dec sizes [np / 2; np / 4; np / 4] then Some [Part 0 2 1; Part 2 4 1; Part 3 4 1]
  else if list_eq_dec Nat.eq_dec sizes [np / 4; np / 4; np / 2] then Some [Part 0 4 1; Part 1 4 1; Part 1 2 1]
  else if list_eq_dec Nat.eq_dec sizes [np / 4; np / 2; np / 4] then Some [Part 0 4 1; Center; Part 3 4 1]
  else if forallb (fun s => s * 4 =? np) sizes then Some [Part 0 4 1; Part 1 4 1; Part 2 4 1; Part 3 4 1]
  else None.

(* _SizeList::_S_before (simd.h 3613-3621) with the sizes: pairs (offset, size) *)
Fixpoint offsets (off : nat) (sizes : list nat) : list (nat * nat) :=
  match sizes with
  | [] => []
  | s :: r => (off, s) :: offsets (off + s) r
  end.

(* simd.h 3613-3621 *)
Definition is_native_register (o : option abi) : bool :=
  match o with Some (AVecBuiltin _) | Some (AVecBltnBtmsk _) => true | _ => false end.

(* simd.h 3818-3921: split<_Sizes...>(__x) *)
Fixpoint split_sizes (sizes : list nat) (a : abi) (x : tuple A) : option (list (tuple A)) :=
  match sizes with
  | [] => None
  | n0 :: rest =>
      let np := abi_size t a in
      if constant x then                                                        (* 3831-3838 *)
        omapm (fun p => match deduce I t (snd p) with
                        | Some b => generate_simd b (fun j => t_get x (fst p + j))
                        | None => None
                        end) (offsets 0 sizes)
      else if np =? n0 then                                                     (* 3839-3843 *)
        match rest, deduce I t n0 with
        | [], Some b => option_map (fun y => [y]) (cast_same a b x)
        | _, _ => None
        end
      else if is_fixed_abi a && (csize (hd (Chunk 0 []) x) =? n0) then          (* 3844-3858 *)
        match x, deduce I t n0 with
        | _, None | _, Some (AFixed _) => None
        | c :: xr, Some _ => option_map (cons [c]) (split_sizes rest (AFixed (ssize (tshape xr))) xr)
        | [], _ => None
        end
      else
        match (if forallb (fun s => is_native_register (deduce I t s)) sizes then special np sizes else None) with
        | Some ps =>
            if length ps =? length sizes then
              omapm (fun p => option_map (fun r => [Chunk (fst p) r])
                                (match snd p with
                                 | Part i tot c => extract a x i tot c
                                 | Center => extract_center a x
                                 end)) (combine sizes ps)
            else None
        | None =>                                                               (* 3896-3920 *)
            omapm (fun p => match deduce I t (snd p) with
                            | Some b =>
                                if alias then load_simd b (mshift (object x) (fst p))
                                else generate_simd b (fun j => t_get_const x (fst p + j))
                            | None => None
                            end) (offsets 0 sizes)
        end
  end.

(* simd.h 3925-3935: __subscript_in_pack *)
Fixpoint subscript_in_pack (xs : list (abi * tuple A)) (i : nat) : option A :=
  match xs with
  | [] => None
  | (a, x) :: r => if i <? abi_size t a then t_get x i else subscript_in_pack r (i - abi_size t a)
  end.

(* simd.h 3938-3949: __store_pack_of_simd: what it writes, from the start of the
   result; None: a memcpy reads beyond its operand *)
Fixpoint store_pack (xs : list (abi * tuple A)) : option (list A) :=
  match xs with
  | [] => Some []
  | (a, x) :: r =>
      if length (obj_mem zero x) <? abi_size t a then None
      else option_map (app (firstn (abi_size t a) (obj_mem zero x))) (store_pack r)
  end.

(* simd.h 3952-3971: concat(simd...); concat(array) (3975-3983) is concat of its
   elements.  None also if the memcpys write beyond the result *)
Definition concat_simd (xs : list (abi * tuple A)) : option (tuple A) :=
  match deduce I t (list_sum (map (fun p => abi_size t (fst p)) xs)) with
  | None => None
  | Some b =>
      match xs with
      | [(a, x)] => cast_same a b x
      | _ =>
          if forallb (fun p => constant (snd p)) xs then generate_simd b (subscript_in_pack xs)
          else
            match simd_shape I t b, store_pack xs with
            | Some s, Some l =>
                if ssizeof s <? length l then None
                else Some (tof_mem s (l ++ skipn (length l) (repeat zero (slanes s))))
            | _, _ => None
            end
      end
  end.
End Split.

(* simd.h 3775-3811: split<_V>(simd_mask).  A mask is the list of the truth values
   of its lanes: of every lane of its vector for _VecBuiltin, of its elements
   for the other ABIs (their bits beyond the elements are clean). *)
Section SplitMask.
Variables (I : isa) (t : elem).

(* simd.h 561-600: __is_sse_abi, __is_avx_abi *)
Definition is_sse_abi (b : abi) : bool := match b with AVecBuiltin n => n <=? 16 | _ => false end.
(* simd.h 561-600 *)
Definition is_avx_abi (b : abi) : bool := match b with AVecBuiltin n => (16 <? n) && (n <=? 32) | _ => false end.

(* simd.h 561-600 *)
Definition mask_lanes (a : abi) : nat :=
  match a with AVecBuiltin _ => abi_full_size I t a | _ => abi_size t a end.

(* a mask with the given elements: _S_convert (simd_builtin.h 2690-2745,
   simd_fixed_size.h 1905-1913), _S_from_bitmask; lanes beyond them are false *)
Definition mask_from (b : abi) (bits : list bool) : list bool :=
  firstn (mask_lanes b) (firstn (abi_size t b) bits ++ repeat false (mask_lanes b)).

(* simd_mask::operator[]: simd.h 4400-4410 *)
Definition mask_get (x : list bool) (i : nat) : option bool := nth_error x i.

(* None also if the sizes do not match (enable_if, 3779) *)
Definition split_mask (b a : abi) (x : list bool) : option (list (list bool)) :=
  let n := abi_size t a in
  let k := abi_size t b in
  let parts := n / k in
  if negb ((1 <=? k) && (n =? parts * k)) then None
  else if abi_eqb a b then Some [x]                                           (* 3783 *)
  else if parts =? 1 then Some [mask_from b (firstn n x)]                     (* 3785 *)
  else if (parts =? 2) && is_sse_abi b && is_avx_abi a then                   (* 3786-3789: __lo128, __hi128 *)
    let half := length x / 2 in
    Some [firstn half x; skipn half x]
  else                                                                        (* 3790-3809 *)
    Some (map (fun i => mask_from b (skipn (i * k) (firstn n x))) (seq 0 parts)).
End SplitMask.
