(* Model of _SimdTuple, the storage of simd<T, fixed_size<N>>, and of the
   element-wise part of _SimdImplFixedSize.
   /repo/experimental/bits/simd_fixed_size.h.

   A tuple is the list of its registers ("chunks"); the object representation
   of a tuple, read as an array of T, is the concatenation of all lanes of all
   registers ([tmem]; PropsFixed.C05_layout shows that this is the C++ object
   layout for every tuple the library builds).  What a chunk's own
   implementation does (_SimdImplBuiltin, _SimdImplScalar) is a parameter of
   the definitions below: a function on whole registers.  Compile-time failures
   (static_assert, __assert_unreachable) and accesses outside an object are
   [None]. *)
From Coq Require Import List Arith Bool ZArith.
From Verif Require Import Prelude BitMask Abi.
Import ListNotations.

(* simd_fixed_size.h 291-333 (_SimdTupleData::first, _FirstType): one member of
   the tuple: csize active lanes in a register with length creg lanes *)
Record chunk (A : Type) := Chunk { csize : nat; creg : list A }.
Arguments Chunk {A}. Arguments csize {A}. Arguments creg {A}.

(* simd_fixed_size.h 325-337: _SimdTuple<_Tp, _Abi0, _Abis...> *)
Definition tuple (A : Type) := list (chunk A).

(* the type of a tuple: per register its active lanes (simd_size_v<_Tp, _Abi>)
   and its total lanes (_S_full_size).  Stands for the list of ABI tags; within
   one storage two tags with equal numbers have the same _SimdMember type.
   Helper for simd_fixed_size.h 187-1029 *)
Definition shape := list (nat * nat).
(* simd_fixed_size.h 325-337 *)
Definition cshape {A} (c : chunk A) : nat * nat := (csize c, length (creg c)).
(* simd_fixed_size.h 325-337 *)
Definition tshape {A} (t : tuple A) : shape := map cshape t.

(* simd_fixed_size.h 337: _S_size() *)
Definition ssize (s : shape) : nat := list_sum (map fst s).
(* lanes of all registers; helper for simd_fixed_size.h 187-1029 *)
Definition slanes (s : shape) : nat := list_sum (map snd s).
(* sizeof(tuple) / sizeof(_Tp): nested {first; second} (simd_fixed_size.h
   291-322), a register being aligned to its size; includes tail padding *)
Definition round_up (x a : nat) : nat := div_roundup x a * a.
(* simd_fixed_size.h 291-322 *)
Definition salign (s : shape) : nat := fold_right Nat.max 1 (map snd s).
(* simd_fixed_size.h 291-322 *)
Fixpoint ssizeof (s : shape) : nat :=
  match s with
  | [] => 0
  | (_, l) :: r => round_up (round_up l (salign r) + ssizeof r) (Nat.max l (salign r))
  end.

(* simd_fixed_size.h 1008-1029 with Abi.fixed_size_storage: the shape of
   __fixed_size_storage_t<_Tp, _Np> *)
Definition abi_shape (I : isa) (t : elem) (a : abi) : nat * nat :=
  (abi_size t a, abi_full_size I t a).
(* simd_fixed_size.h 1008-1029 *)
Definition storage_shape (I : isa) (t : elem) (n : nat) : option shape :=
  option_map (map (abi_shape I t)) (fixed_size_storage I t n).

(* the elements a user sees: active lanes in order
   (simd_fixed_size.h 582-590 read one by one) *)
Definition celems {A} (c : chunk A) : list A := firstn (csize c) (creg c).
(* simd_fixed_size.h 582-590 *)
Definition telems {A} (t : tuple A) : list A := flat_map celems t.

(* simd_fixed_size.h 342-346, 592-612: the object seen through
   reinterpret_cast<_Tp*> / _M_as_charptr() *)
Definition tmem {A} (t : tuple A) : list A := flat_map creg t.
(* ... followed by the object's tail padding (contents pad);
   helper for simd_fixed_size.h 187-1029 *)
Definition obj_mem {A} (pad : A) (t : tuple A) : list A :=
  tmem t ++ repeat pad (ssizeof (tshape t) - slanes (tshape t)).
(* the inverse: an object of the given type with the given representation;
   helper for simd_fixed_size.h 187-1029 *)
Fixpoint tof_mem {A} (s : shape) (m : list A) : tuple A :=
  match s with
  | [] => []
  | (n, l) :: r => Chunk n (firstn l m) :: tof_mem r (skipn l m)
  end.

(* ------------------------------------------------------------------ *)
(* C++ struct layout of the nested {first; second} pair
   (simd_fixed_size.h 291-322: _SimdTupleData); sizes and alignments in bytes *)
(* sizeof and alignof of one register: __vector_type_n (simd.h 1354-1370) has
   alignment = size; a scalar has alignof(_Tp) = al *)
Definition reg_bytes (I : isa) (t : elem) (a : abi) : nat :=
  match a with AScalar => esize t | _ => vector_type_bytes I t (abi_size t a) end.
(* simd.h 1354-1370 *)
Definition reg_align (I : isa) (t : elem) (al : nat) (a : abi) : nat :=
  match a with AScalar => al | _ => vector_type_bytes I t (abi_size t a) end.
(* simd.h 1354-1370 *)
Fixpoint tuple_align (I : isa) (t : elem) (al : nat) (l : list abi) : nat :=
  match l with
  | [] => 1
  | a :: r => Nat.max (reg_align I t al a) (tuple_align I t al r)
  end.
(* byte offset of every register within the object;
   helper for simd_fixed_size.h 187-1029 *)
Fixpoint reg_offsets (I : isa) (t : elem) (al : nat) (l : list abi) : list nat :=
  match l with
  | [] => []
  | a :: r =>
      0 :: map (Nat.add (round_up (reg_bytes I t a) (tuple_align I t al r)))
               (reg_offsets I t al r)
  end.

(* sizeof the whole object; helper for simd_fixed_size.h 187-1029 *)
Fixpoint tuple_sizeof (I : isa) (t : elem) (al : nat) (l : list abi) : nat :=
  match l with
  | [] => 0
  | a :: r =>
      round_up (round_up (reg_bytes I t a) (tuple_align I t al r) + tuple_sizeof I t al r)
               (Nat.max (reg_align I t al a) (tuple_align I t al r))
  end.

(* ------------------------------------------------------------------ *)
(* construction and subscripting                                       *)

(* simd_fixed_size.h 398-410: _S_generate; gen receives the offset and the type
   of the register and returns the register *)
Fixpoint t_generate {A} (s : shape) (off : nat) (gen : nat -> nat -> nat -> list A)
  : tuple A :=
  match s with
  | [] => []
  | (n, l) :: r => Chunk n (gen off n l) :: t_generate r (off + n) gen
  end.

(* simd_builtin.h 1420-1432 / simd_scalar.h 147-152: _S_generator of one
   register: lanes beyond the size are 0 *)
Definition reg_generator {A} (zero : A) (n l : nat) (g : nat -> A) : list A :=
  map (fun i => if i <? n then g i else zero) (seq 0 l).

(* simd_fixed_size.h 1320-1332: _SimdImplFixedSize::_S_generator *)
Definition fs_generator {A} (zero : A) (np : nat) (s : shape) (g : nat -> A) : tuple A :=
  t_generate s 0 (fun off n l =>
    reg_generator zero n l (fun i => if i <? np then g (off + i) else zero)).

(* simd_fixed_size.h 1310-1317: _S_broadcast (a register's broadcast fills all
   its lanes, simd_builtin.h 1414-1418) *)
Definition fs_broadcast {A} (s : shape) (x : A) : tuple A :=
  t_generate s 0 (fun _ _ l => repeat x l).

(* simd_fixed_size.h 633-639: _M_subscript_read *)
Definition chunk_read {A} (c : chunk A) (i : nat) : option A := nth_error (creg c) i.
(* simd_fixed_size.h 641-647: _M_subscript_write *)
Definition chunk_write {A} (c : chunk A) (i : nat) (v : A) : option (chunk A) :=
  if i <? length (creg c) then Some (Chunk (csize c) (upd (creg c) i v)) else None.

(* simd_fixed_size.h 582-590: operator[](integral_constant) *)
Fixpoint t_get_const {A} (t : tuple A) (i : nat) : option A :=
  match t with
  | [] => None
  | c :: r => if i <? csize c then chunk_read c i else t_get_const r (i - csize c)
  end.

(* simd_fixed_size.h 592-612: operator[](size_t) with
   _GLIBCXX_SIMD_USE_ALIASING_LOADS (simd_detail.h 274) *)
Definition t_get {A} (t : tuple A) (i : nat) : option A :=
  match t with
  | [c] => chunk_read c i
  | _ => nth_error (tmem t) i
  end.
(* simd_fixed_size.h 600-610: the same without aliasing loads; scalar_first is
   __is_scalar_abi<_Abi0>() *)
Fixpoint t_get_noalias {A} (scalar_first : nat * nat -> bool) (t : tuple A) (i : nat)
  : option A :=
  match t with
  | [] => None
  | [c] => chunk_read c i
  | c :: r =>
      if scalar_first (cshape c) then nth_error (tmem t) i
      else if i <? csize c then chunk_read c i
      else t_get_noalias scalar_first r (i - csize c)
  end.

(* simd_fixed_size.h 614-629: _M_set with aliasing loads *)
Definition t_set {A} (t : tuple A) (i : nat) (v : A) : option (tuple A) :=
  match t with
  | [c] => option_map (fun c' => [c']) (chunk_write c i v)
  | _ => if i <? length (tmem t)
         then Some (tof_mem (tshape t) (upd (tmem t) i v)) else None
  end.
(* simd_fixed_size.h 622-627: _M_set without aliasing loads *)
Fixpoint t_set_noalias {A} (t : tuple A) (i : nat) (v : A) : option (tuple A) :=
  match t with
  | [] => None
  | [c] => option_map (fun c' => [c']) (chunk_write c i v)
  | c :: r =>
      if i <? csize c then option_map (fun c' => c' :: r) (chunk_write c i v)
      else option_map (cons c) (t_set_noalias r (i - csize c) v)
  end.

(* ------------------------------------------------------------------ *)
(* chunk-wise application, all tuples of the same type                  *)

(* the members "first" / "second" of every tuple of a pack;
   helper for simd_fixed_size.h 187-1029 *)
Definition heads {A} (more : list (tuple A)) : list (list A) :=
  map (fun t => match t with [] => [] | c :: _ => creg c end) more.
(* simd_fixed_size.h 622-627 *)
Definition tails {A} (more : list (tuple A)) : list (tuple A) := map (@tl _) more.

(* simd_fixed_size.h 506-551 (_M_apply_per_chunk) when every element of the
   pack has the same type as *this: _M_extract_argument is .first (431-432) and
   _M_skip_argument is .second (457-458); fun sees the register's size *)
Fixpoint apply_per_chunk {A} (f : nat -> list A -> list (list A) -> list A)
    (x : tuple A) (more : list (tuple A)) : tuple A :=
  match x with
  | [] => []
  | c :: r => Chunk (csize c) (f (csize c) (creg c) (heads more))
              :: apply_per_chunk f r (tails more)
  end.

(* simd_fixed_size.h 412-425: _M_apply_wrapped: fun also receives the offset *)
Fixpoint apply_wrapped {A} (f : nat -> nat -> list A -> list (list A) -> list A)
    (off : nat) (x : tuple A) (more : list (tuple A)) : tuple A :=
  match x with
  | [] => []
  | c :: r => Chunk (csize c) (f off (csize c) (creg c) (heads more))
              :: apply_wrapped f (off + csize c) r (tails more)
  end.

(* ------------------------------------------------------------------ *)
(* arguments of another element type: views into a tuple                *)

(* simd_fixed_size.h 212-278: a (possibly _WithOffset) reference to a tuple.
   [vdone] are the registers already passed; they are kept so that writing
   through the reference can be modelled. *)
Record view (B : Type) := View { vdone : tuple B; vtup : tuple B; voff : nat }.
Arguments View {B}. Arguments vdone {B}. Arguments vtup {B}. Arguments voff {B}.

(* simd_fixed_size.h 212-278 *)
Definition view_of {B} (t : tuple B) : view B := View [] t 0.

(* simd_fixed_size.h 96-108: __simd_tuple_pop_front<_Np>; fuel: registers *)
Fixpoint pop_front {B} (done t : tuple B) (np : nat) : option (tuple B * tuple B) :=
  if np =? 0 then Some (done, t)
  else match t with
       | [] => None
       | c :: r => if csize c <=? np then pop_front (done ++ [c]) r (np - csize c) else None
       end.

(* simd_fixed_size.h 427-448: _M_extract_argument for a tuple of another type:
   memcpy of sizeof(__r) bytes from _M_as_charptr() (which includes the
   offset); st is __fixed_size_storage_t<_TupT, .>.  Reading beyond the object
   is None. *)
Definition extract_argument {B} (pad : B) (st : nat -> option shape) (first_size : nat) (v : view B)
  : option (tuple B) :=
  match st first_size with
  | None => None
  | Some s =>
      if voff v + ssizeof s <=? ssizeof (tshape (vtup v))
      then Some (tof_mem s (firstn (slanes s) (skipn (voff v) (obj_mem pad (vtup v)))))
      else None
  end.

(* simd_fixed_size.h 450-469: _M_skip_argument *)
Definition skip_argument {B} (first_size : nat) (v : view B) : option (view B) :=
  match vtup v with
  | [] => None
  | c :: r =>
      if (first_size =? csize c) && (voff v =? 0)
      then Some (View (vdone v ++ [c]) r 0)
      else if (csize c <? first_size) && (first_size mod csize c =? 0) && (voff v =? 0)
      then option_map (fun dt => View (fst dt) (snd dt) 0)
             (pop_front (vdone v) (vtup v) first_size)
      else if first_size + voff v <? csize c
      then Some (View (vdone v) (vtup v) (first_size + voff v))
      else if first_size + voff v =? csize c
      then Some (View (vdone v ++ [c]) r 0)
      else None
  end.

(* simd_fixed_size.h 471-499: _M_assign_front<_Offset>: if the first registers
   have the same type, registers are assigned one by one (static_assert:
   offset 0); otherwise memcpy of the elements *)
Fixpoint assign_front {B} (t : tuple B) (off : nat) (x : tuple B) : option (tuple B) :=
  match t, x with
  | c :: r, d :: y =>
      if (fst (cshape c) =? fst (cshape d)) && (snd (cshape c) =? snd (cshape d))
      then if off =? 0
           then match y with
                | [] => Some (d :: r)
                | _ => if length y <=? length r
                       then option_map (cons d) (assign_front r 0 y) else None
                end
           else None
      else
        let m := tmem t in
        let k := ssize (tshape x) in
        if off + k <=? length m
        then Some (tof_mem (tshape t) (firstn off m ++ firstn k (tmem x) ++ skipn (off + k) m))
        else None
  | _, _ => None
  end.
(* simd_fixed_size.h 471-499 *)
Definition view_assign {B} (v : view B) (x : tuple B) : option (view B) :=
  option_map (fun t => View (vdone v) t (voff v)) (assign_front (vtup v) (voff v) x).

(* the whole object a view refers to; helper for simd_fixed_size.h 187-1029 *)
Definition view_all {B} (v : view B) : tuple B := vdone v ++ vtup v.

(* simd_fixed_size.h 506-551: _M_apply_per_chunk with same-type arguments more
   and one argument of another element type.  fun returns the new register and
   the (possibly modified) copy of its last argument; [wb]: the argument is a
   non-const lvalue and is written back (511-539).  Result: the new tuple and
   the final state of the referenced object. *)
Fixpoint apply_mixed {A B} (pad : B) (wb : bool) (st : nat -> option shape)
    (f : nat -> list A -> list (list A) -> tuple B -> list A * tuple B)
    (x : tuple A) (more : list (tuple A)) (v : view B) : option (tuple A * tuple B) :=
  match x with
  | [] => None
  | c :: r =>
      match extract_argument pad st (csize c) v with
      | None => None
      | Some arg =>
          let (reg, arg') := f (csize c) (creg c) (heads more) arg in
          match (if wb then view_assign v arg' else Some v) with
          | None => None
          | Some v1 =>
              match r with
              | [] => Some ([Chunk (csize c) reg], view_all v1)
              | _ =>
                  match skip_argument (csize c) v1 with
                  | None => None
                  | Some v2 =>
                      option_map (fun p => (Chunk (csize c) reg :: fst p, snd p))
                        (apply_mixed pad wb st f r (tails more) v2)
                  end
              end
          end
      end
  end.

(* ------------------------------------------------------------------ *)
(* results of another element type                                      *)

(* simd_fixed_size.h 553-565 (_M_apply_r) with 72-90 (__simd_tuple_concat): the
   tuples fun returns per register, concatenated *)
Fixpoint apply_r {A B} (f : nat -> list A -> tuple B) (x : tuple A) : tuple B :=
  match x with
  | [] => []
  | c :: r => f (csize c) (creg c) ++ apply_r f r
  end.

(* simd_fixed_size.h 553-565, 72-90 *)
Definition shape_eqb (a b : shape) : bool :=
  (length a =? length b)
  && forallb (fun p => (fst (fst p) =? fst (snd p)) && (snd (fst p) =? snd (snd p)))
       (combine a b).

(* evaluate f on every element, None if one evaluation is;
   helper for simd_fixed_size.h 187-1029 *)
Fixpoint omapm {A B} (f : A -> option B) (l : list A) : option (list B) :=
  match l with
  | [] => Some []
  | a :: r => match f a, omapm f r with
              | Some b, Some bs => Some (b :: bs)
              | _, _ => None
              end
  end.

(* simd_fixed_size.h 853-860: the memcpy branch; the bytes behind the last
   element stay unset (here: zero) *)
Definition optimize_memcpy {B} (zero : B) (s : shape) (x : tuple B) : option (tuple B) :=
  if ssizeof s =? ssizeof (tshape x)
  then Some (tof_mem s (firstn (ssize s) (tmem x) ++ repeat zero (slanes s - ssize s)))
  else None.

(* simd_fixed_size.h 811-861: __optimize_simd_tuple.  st is
   __fixed_size_storage_t<_Tp, .>; a register with one lane is the scalar
   ABI's.  __concat joins registers.  __x[__i] is the integral_constant
   overload (simd.h __generate_from_n_evaluations passes _SizeConstant).  Fuel:
   number of registers. *)
Fixpoint optimize_tuple {B} (zero : B) (fuel : nat) (st : nat -> option shape)
    (x : tuple B) : option (tuple B) :=
  match x with
  | [] => Some []                                                    (* 812-815 *)
  | [c] => Some [c]                                                  (* 817-820 *)
  | c0 :: c1 :: rest =>
      match fuel, st (ssize (tshape x)) with
      | S fuel', Some ((rn, rl) :: rr) =>
          if shape_eqb ((rn, rl) :: rr) (tshape x) then Some x       (* 829-830 *)
          else if shape_eqb [(rn, rl)] [cshape c0] then              (* 831-833 *)
            option_map (cons c0) (optimize_tuple zero fuel' st (c1 :: rest))
          else if (length (creg c0) =? 1)
                  || negb (length (creg c0) =? csize c0) then        (* 834-840 *)
            match omapm (t_get_const x) (seq 0 rn), pop_front [] x rn with
            | Some es, Some dt =>
                option_map (cons (Chunk rn (es ++ repeat zero (rl - rn))))
                           (optimize_tuple zero fuel' st (snd dt))
            | _, _ => None
            end
          else if shape_eqb [cshape c0] [cshape c1]
                  && (rn =? csize c0 + csize c1) then                (* 841-844 *)
            option_map (cons (Chunk rn (creg c0 ++ creg c1)))
                       (optimize_tuple zero fuel' st rest)
          else
            match rest with
            | c2 :: c3 :: rest2 =>
                if (rn =? 4 * csize c0) && (csize c0 =? csize c3) then (* 845-852 *)
                  option_map (cons (Chunk rn ((creg c0 ++ creg c1) ++ creg c2 ++ creg c3)))
                             (optimize_tuple zero fuel' st rest2)
                else optimize_memcpy zero ((rn, rl) :: rr) x
            | _ => optimize_memcpy zero ((rn, rl) :: rr) x
            end
      | _, _ => None
      end
  end.

(* ------------------------------------------------------------------ *)
(* comparisons and tests: masks of fixed_size simds are _BitMask<N>      *)

(* _MaskImpl::_S_to_bits of one register's mask of n elements (simd.h 879-,
   simd_builtin.h 2620-2634, simd_scalar.h 637-641), as a
   _SanitizedBitMask<n>; the mask is given by its n elements *)
Definition reg_to_bits (n : nat) (k : list bool) : bitmask :=
  bm_of_ullong n (bits_to_Z (firstn n k)).

(* simd_fixed_size.h 567-580: _M_test *)
Fixpoint t_test {A} (f : nat -> list A -> list (list A) -> list bool)
    (x : tuple A) (more : list (tuple A)) : bitmask :=
  match x with
  | [] => []
  | c :: r =>
      let first := reg_to_bits (csize c) (f (csize c) (creg c) (heads more)) in
      match r with
      | [] => first
      | _ => bm_prepend (ssize (tshape r)) (csize c) true
               (t_test f r (tails more)) first
      end
  end.

(* simd_fixed_size.h 863-933: __for_each, collecting what is passed to fun *)
Fixpoint t_foreach {A S} (f : nat -> nat -> list A -> S -> S) (off : nat) (x : tuple A)
    (s : S) : S :=
  match x with
  | [] => s
  | c :: r => t_foreach f (off + csize c) r (f off (csize c) (creg c) s)
  end.

(* simd_fixed_size.h 1397-1409: _S_negate, with 201-203
   (_S_mask_to_shifted_ullong: a 64-bit shift) *)
Definition fs_negate {A} (f : nat -> list A -> list bool) (x : tuple A) : bitmask :=
  let np := ssize (tshape x) in
  t_foreach (fun off n reg bits =>
      bm_or bits (bm_of_ullong np
        (Z.shiftl (bm_to_ullong (reg_to_bits n (f n reg))) (Z.of_nat off) mod 2 ^ 64)%Z))
    0 x (bm_zero np).

(* ------------------------------------------------------------------ *)
(* masked operations                                                    *)

(* simd_fixed_size.h 187-191: _S_submask *)
Definition submask (np off n : nat) (bits : bitmask) : bitmask := bm_extract np off n bits.

(* simd_fixed_size.h 193-199: _S_make_mask: the register's mask, given by its
   n elements (_MaskImpl::_S_convert of a sanitized bit mask,
   simd_builtin.h 2690-2702) *)
Definition make_mask (np off n : nat) (bits : bitmask) : list bool :=
  bm_list n (bm_sanitized n (bm_extract_flag np true off n) (submask np off n bits)).

(* simd_fixed_size.h 863-933: __for_each over (lhs, rhs) with a non-const lhs *)
Fixpoint t_foreach2 {A} (f : nat -> nat -> list A -> list A -> list A) (off : nat)
    (x y : tuple A) : tuple A :=
  match x, y with
  | c :: r, d :: s =>
      Chunk (csize c) (f off (csize c) (creg c) (creg d)) :: t_foreach2 f (off + csize c) r s
  | _, _ => x
  end.
(* ... over lhs alone; helper for simd_fixed_size.h 187-1029 *)
Fixpoint t_foreach1 {A} (f : nat -> nat -> list A -> list A) (off : nat) (x : tuple A)
  : tuple A :=
  match x with
  | [] => []
  | c :: r => Chunk (csize c) (f off (csize c) (creg c)) :: t_foreach1 f (off + csize c) r
  end.

(* simd_fixed_size.h 1776-1787 and 1805-1818: _S_masked_assign /
   _S_masked_cassign with a simd right-hand side; op is what the register's own
   _S_masked_assign / _S_masked_cassign does *)
Definition fs_masked_binary {A} (op : nat -> list bool -> list A -> list A -> list A)
    (bits : bitmask) (lhs rhs : tuple A) : tuple A :=
  let np := ssize (tshape lhs) in
  t_foreach2 (fun off n a b => op n (make_mask np off n bits) a b) 0 lhs rhs.

(* simd_fixed_size.h 1789-1802 and 1820-1832: the overloads for a scalar
   right-hand side *)
Definition fs_masked_scalar {A S} (op : nat -> list bool -> list A -> S -> list A)
    (bits : bitmask) (lhs : tuple A) (rhs : S) : tuple A :=
  let np := ssize (tshape lhs) in
  t_foreach1 (fun off n a => op n (make_mask np off n bits) a rhs) 0 lhs.

(* simd_fixed_size.h 1834-1845: _S_masked_unary *)
Definition fs_masked_unary {A} (op : nat -> list bool -> list A -> list A)
    (bits : bitmask) (v : tuple A) : tuple A :=
  let np := ssize (tshape v) in
  apply_wrapped (fun off n a _ => op n (make_mask np off n bits) a) 0 v [].
