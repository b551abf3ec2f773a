(* Model of the alignment promises of loads and of split().
   /repo/experimental/bits/simd.h. *)
From Coq Require Import List ZArith Bool Arith.
From Verif Require Import Prelude BitMask Abi.
Import ListNotations.

(* element_aligned_tag::_S_alignment: simd.h 162-166; al = alignof(_Up) *)
Definition element_alignment (al : Z) : Z := al.

(* vector_aligned_tag::_S_alignment<_Tp, _Up>: simd.h 173-177; also
   memory_alignment_v: simd.h 2785-2791.  s = sizeof(_Up), n = _Tp::size(). *)
Definition vector_alignment (s n : nat) : nat := bit_ceil (s * n).

(* overaligned_tag<_Np>::_S_alignment: simd.h 188-191 *)
Definition overalignment (n : Z) : Z := n.

(* split<_Sizes...>: simd.h 3902-3906.  base = alignof(simd<_Tp, _Ap>),
   off = _S_before(__i), s = sizeof(_Tp).  size_t arithmetic does not wrap here
   because base - (.. % base) > 0. *)
Definition split_alignment (base off s : Z) : Z :=
  let a := (base - (off * s) mod base)%Z in
  let b := Z.lxor (Z.land (a - 1) a) a in
  if Z.eqb b 0 then a else b.

(* alignof(simd<_Tp, _Abi>), the alignas at simd.h 5158: simd_scalar.h 99,
   simd_fixed_size.h 1216-1217, simd_builtin.h 814 (alignof of a GNU vector type
   is its size, simd.h 1369).  al = alignof(_Tp). *)
Definition abi_align (I : isa) (t : elem) (al : nat) (a : abi) : nat :=
  match a with
  | AScalar => al
  | AFixed n => bit_ceil (n * esize t)
  | AVecBuiltin _ | AVecBltnBtmsk _ => vector_type_bytes I t (abi_size t a)
  end.

(* sizeof(simd<_Tp, fixed_size<_Np>>): C++ rounds the size of the member, at
   least _Np * sizeof(_Tp) bytes, up to the alignment; "no padding" of
   simd.h 3728 is sizeof(_V) == sizeof(_Tp) * _V::size() *)
Definition fixed_no_padding (t : elem) (n : nat) : Prop :=
  exists q, n * esize t = q * bit_ceil (n * esize t).

(* split<_V> of a fixed_size object into fixed_size parts without padding or
   into scalars, simd.h 3724-3738: part i is read at element offset i * size
   with the promise vector_aligned *)
Definition split_array_promise (t : elem) (vsize : nat) : nat :=
  vector_alignment (esize t) vsize.
(* simd.h 3724-3738 *)
Definition split_array_address (addr : Z) (t : elem) (vsize i : nat) : Z :=
  (addr + Z.of_nat (i * vsize * esize t))%Z.

(* Implicit conversion constructor between fixed_size simds, simd.h 4930-4941:
   the source is copied to a temporary array<_Up, size()>, whose alignment is
   alignof(_Up) (al), and loaded with the promise vector_aligned for that
   element type, i.e. vector_aligned_tag::_S_alignment<simd, _Up>. *)
Definition convert_ctor_promise (u : elem) (n : nat) : nat :=
  vector_alignment (esize u) n.
(* simd.h 4930-4941 *)
Definition convert_ctor_address_ok (al : nat) (addr : Z) : Prop :=
  (Z.of_nat al | addr)%Z.
