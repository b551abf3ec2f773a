(* Model of ABI tag selection: which register kinds hold simd<T, Abi>.
   /repo/experimental/bits/simd.h, simd_builtin.h, simd_scalar.h,
   simd_fixed_size.h.  Template metaprogramming is modelled by ordinary
   functions; a type that does not exist (void, missing ::type) is None.
   Simplification: int / size_t are unbounded naturals. *)
From Coq Require Import List Arith Bool.
From Verif Require Import Prelude BitMask.
Import ListNotations.

(* Vectorizable element types: simd.h 334-342 (__is_vectorizable: arithmetic and
   not bool).  Only what the selection looks at is kept: sizeof, floating-point
   or not, "is float", "is double". *)
Inductive elem :=
| TInt (bytes : nat)           (* every integral type except bool *)
| TFloat
| TDouble
| TLongDouble (bytes : nat).

(* sizeof(_Tp); helper for simd.h 2590-2642 *)
Definition esize (t : elem) : nat :=
  match t with
  | TInt b => b
  | TFloat => 4
  | TDouble => 8
  | TLongDouble b => b
  end.

(* is_floating_point_v<_Tp>: simd.h 2590, 2606, 2618, 2642 *)
Definition efloating (t : elem) : bool :=
  match t with TInt _ => false | _ => true end.

(* is_same_v<_Tp, float>: simd.h 2594 *)
Definition eis_float (t : elem) : bool :=
  match t with TFloat => true | _ => false end.

(* is_same_v<_Tp, double>: simd.h 2611 *)
Definition eis_double (t : elem) : bool :=
  match t with TDouble => true | _ => false end.

(* The target: macros of simd_detail.h 50-215 and the __have_* constants of
   simd.h 467-528, restricted to those the ABI selection reads. *)
Record isa := {
  have_sse : bool; have_sse2 : bool; have_avx : bool; have_avx2 : bool;
  have_avx512f : bool; have_avx512vl : bool; have_avx512bw : bool;
  have_power8vec : bool; have_power_vsx : bool; have_power_vmx : bool;
  have_neon : bool; have_neon_a32 : bool; have_neon_a64 : bool;
  support_neon_float : bool;
  def_x86_64 : bool; def_i386 : bool; def_aarch64 : bool
}.

(* __vectorized_sizeof<_Tp>(): simd.h 2573-2623 *)
Definition vectorized_sizeof (I : isa) (t : elem) : nat :=
  if esize t <=? 8 then
    if have_avx512bw I then 64
    else if have_avx512f I && (4 <=? esize t) then 64
    else if have_avx2 I then 32
    else if have_avx I && efloating t then 32
    else if have_sse2 I then 16
    else if have_sse I && eis_float t then 16
    else if have_power8vec I
            || (have_power_vmx I && (esize t <? 8))
            || (have_power_vsx I && efloating t) then 16
    else if have_neon_a64 I || (have_neon_a32 I && negb (eis_double t)) then 16
    else if have_neon I && (esize t <? 8)
            && (support_neon_float I || negb (efloating t)) then 16
    else esize t
  else esize t.

(* simd_abi::max_fixed_size<_Tp>: simd.h 2628-2630 *)
Definition max_fixed_size (I : isa) (t : elem) : nat :=
  if have_avx512bw I && (esize t =? 1) then 64 else 32.

(* ABI tags: simd_detail.h/simd.h simd_abi::_Scalar, _Fixed<N>, _VecBuiltin<B>,
   _VecBltnBtmsk<B> (simd_scalar.h 58, simd_fixed_size.h 1165-1166,
   simd_builtin.h 929-930, 1064-1065) *)
Inductive abi :=
| AScalar
| AFixed (n : nat)
| AVecBuiltin (bytes : nat)
| AVecBltnBtmsk (bytes : nat).

(* _Abi::template _S_size<_Tp>: simd_scalar.h 60, simd_fixed_size.h 1168,
   simd_builtin.h 932-933, 1067-1068.  Also simd_size_v (simd.h 2705-2719). *)
Definition abi_size (t : elem) (a : abi) : nat :=
  match a with
  | AScalar => 1
  | AFixed n => n
  | AVecBuiltin b => b / esize t
  | AVecBltnBtmsk b => b / esize t
  end.

(* _Abi::template _S_is_valid_v<_Tp>: simd_scalar.h 64-73,
   simd_fixed_size.h 1171-1182, simd_builtin.h 936-950, 1071-1090 *)
Definition abi_valid (I : isa) (t : elem) (a : abi) : bool :=
  match a with
  | AScalar => true
  | AFixed n => (0 <? n) && (n <=? max_fixed_size I t)
  | AVecBuiltin b =>
      (1 <? b)
      && ((1 <? b / esize t) && (b mod esize t =? 0)
          && (b <=? vectorized_sizeof I t)
          && (negb (have_avx512f I) || (b <=? 32)))
  | AVecBltnBtmsk b =>
      (1 <? b) && have_avx512f I && (have_avx512bw I || (4 <=? esize t))
      && (esize t <? vectorized_sizeof I t)
      && ((1 <? b / esize t) && (b mod esize t =? 0) && (b <=? 64)
          && ((32 <? b) || have_avx512vl I))
  end.

(* sizeof of __vector_type_n<_Tp, _Np>: simd.h 1354-1370
   (__min_vector_size<_Tp> = 2 * sizeof(_Tp), 1328-1329) *)
Definition vector_type_bytes (I : isa) (t : elem) (n : nat) : nat :=
  let np2 := bit_ceil (n * esize t) in
  if def_i386 I && (np2 =? 8) then 16
  else if np2 <? 2 * esize t then 2 * esize t else np2.

(* _S_full_size<_Tp>: _SimdWrapper::_S_full_size (simd.h 2466-2467) via
   _GnuTraits (simd_builtin.h 819) when the tag is valid (simd_builtin.h
   978-988, 1112-1121), 0 from _InvalidTraits otherwise (simd.h 706);
   simd_scalar.h 61, simd_fixed_size.h 1169 *)
Definition abi_full_size (I : isa) (t : elem) (a : abi) : nat :=
  match a with
  | AScalar => 1
  | AFixed n => n
  | AVecBuiltin _ | AVecBltnBtmsk _ =>
      if abi_valid I t a
      then vector_type_bytes I t (abi_size t a) / esize t
      else 0
  end.

(* _S_is_partial<_Tp>: simd.h 2469 (_S_full_size != _S_size), false from
   _InvalidTraits (simd.h 707); simd_scalar.h 62 *)
Definition abi_is_partial (I : isa) (t : elem) (a : abi) : bool :=
  match a with
  | AScalar | AFixed _ => false
  | AVecBuiltin _ | AVecBltnBtmsk _ =>
      if abi_valid I t a
      then negb (abi_full_size I t a =? abi_size t a)
      else false
  end.

(* The template template parameters an _AbiList ranges over, including
   __scalar_abi_wrapper: simd.h 4125-4135, 4238 *)
Inductive abi_family := FBtmsk | FBuiltin | FScalarWrapper.

(* _A0<_Bytes> after __decay_abi: simd.h 4138-4144 *)
Definition fam_abi (f : abi_family) (b : nat) : abi :=
  match f with
  | FBtmsk => AVecBltnBtmsk b
  | FBuiltin => AVecBuiltin b
  | FScalarWrapper => AScalar
  end.

(* _A0<_Bytes>::_S_is_valid_v<_Tp>; the scalar wrapper also wants
   sizeof(_Tp) == _Bytes: simd.h 4132-4134 *)
Definition fam_valid (I : isa) (t : elem) (f : abi_family) (b : nat) : bool :=
  match f with
  | FScalarWrapper => abi_valid I t AScalar && (esize t =? b)
  | _ => abi_valid I t (fam_abi f b)
  end.

(* _A0<_Bytes>::_S_full_size<_Tp>: simd.h 4128 for the wrapper *)
Definition fam_full_size (I : isa) (t : elem) (f : abi_family) (b : nat) : nat :=
  match f with
  | FScalarWrapper => 1
  | _ => abi_full_size I t (fam_abi f b)
  end.

(* __find_next_valid_abi<_Abi, _Bytes, _Tp>::type: simd.h 4147-4173.  The
   recursion halves _Bytes, so _Bytes is enough fuel; running out of fuel
   (proved impossible) is None. *)
Fixpoint find_next_valid_abi (fuel : nat) (I : isa) (t : elem) (f : abi_family)
    (bytes : nat) : option abi :=
  match f with
  | FScalarWrapper => Some AScalar
  | _ =>
      match fuel with
      | O => None
      | S fuel' =>
          let next := bit_ceil bytes / 2 in
          if next <? esize t * 2 then Some (fam_abi f bytes)
          else if negb (abi_is_partial I t (fam_abi f next))
                  && abi_valid I t (fam_abi f next)
          then Some (fam_abi f next)
          else find_next_valid_abi fuel' I t f next
      end
  end.

(* _AllNativeAbis: simd.h 4238-4239 *)
Definition all_native_abis : list abi_family := [FBtmsk; FBuiltin; FScalarWrapper].

(* _AbiList<...>::_S_has_valid_abi<_Tp, _Np>: simd.h 4179, 4187-4190 *)
Fixpoint has_valid_abi (I : isa) (t : elem) (l : list abi_family) (n : nat) : bool :=
  match l with
  | [] => false
  | f :: r => fam_valid I t f (esize t * n) || has_valid_abi I t r n
  end.

(* _AbiList<...>::_FirstValidAbi<_Tp, _Np>: simd.h 4180, 4192-4196; void is None *)
Fixpoint first_valid_abi (I : isa) (t : elem) (l : list abi_family) (n : nat)
  : option abi :=
  match l with
  | [] => None
  | f :: r =>
      if fam_valid I t f (esize t * n) then Some (fam_abi f (esize t * n))
      else first_valid_abi I t r n
  end.

(* _AbiList<...>::_BestAbi<_Tp, _Np>: simd.h 4181, 4198-4230; void is None *)
Fixpoint best_abi (I : isa) (t : elem) (l : list abi_family) (n : nat) : option abi :=
  match l with
  | [] => None
  | f :: r =>
      if n =? 1 then Some AScalar
      else
        let bytes := esize t * n in
        let fullsize := fam_full_size I t f bytes in
        if fam_valid I t f bytes && (fullsize / 2 <? n)
        then Some (fam_abi f bytes)
        else
          match find_next_valid_abi bytes I t f bytes with
          | Some b =>
              if abi_valid I t b && (abi_size t b <=? n) then Some b
              else best_abi I t r n
          | None => None
          end
  end.

(* __fixed_size_storage_builder<_Tp, _Np, _Tuple, _Next, _Remain>:
   simd_fixed_size.h 1008-1029.  simd<_Tp, _BestAbi> needs a valid ABI; each
   step removes _Next::size() elements, so _Np is enough fuel; None means the
   type does not exist. *)
Fixpoint storage_builder (fuel : nat) (I : isa) (t : elem) (n : nat)
  : option (list abi) :=
  match fuel with
  | O => None
  | S fuel' =>
      match best_abi I t all_native_abis n with
      | Some a =>
          if negb (abi_valid I t a) then None
          else if n <? abi_size t a then None
          else
            let remain := n - abi_size t a in
            if remain =? 0 then Some [a]
            else match storage_builder fuel' I t remain with
                 | Some l => Some (a :: l)
                 | None => None
                 end
      | None => None
      end
  end.

(* __fixed_size_storage<_Tp, _Np>::type: simd_fixed_size.h 1014-1016 *)
Definition fixed_size_storage (I : isa) (t : elem) (n : nat) : option (list abi) :=
  storage_builder n I t n.

(* simd_abi::deduce_t<_Tp, _Np>: simd.h 2734-2738, 4246-4263 *)
Definition deduce (I : isa) (t : elem) (n : nat) : option abi :=
  if has_valid_abi I t all_native_abis n
  then first_valid_abi I t all_native_abis n
  else if abi_valid I t (AFixed n) then Some (AFixed n) else None.

(* rebind_simd<_Tp, simd<_Up, _Abi>>: simd.h 2742-2765 (the ABI of the result) *)
Definition rebind_abi (I : isa) (t u : elem) (a : abi) : option abi :=
  deduce I t (abi_size u a).

(* resize_simd<_Np, simd<_Tp, _Abi>>: simd.h 2767-2782 (the ABI of the result) *)
Definition resize_abi (I : isa) (n : nat) (t : elem) : option abi := deduce I t n.

(* simd_abi::compatible<_Tp>: simd.h 2632-2647 *)
Definition compatible_abi (I : isa) (t : elem) : abi :=
  if def_x86_64 I || def_aarch64 I then
    if esize t <=? 8 then AVecBuiltin 16 else AScalar
  else if have_neon I then
    if (esize t <? 8) && (support_neon_float I || negb (efloating t))
    then AVecBuiltin 16 else AScalar
  else AScalar.

(* simd_abi::native<_Tp> (__determine_native_abi): simd.h 2650-2665 *)
Definition native_abi (I : isa) (t : elem) : abi :=
  let bytes := vectorized_sizeof I t in
  if bytes =? esize t then AScalar
  else if have_avx512vl I || (have_avx512f I && (bytes =? 64))
  then AVecBltnBtmsk bytes
  else AVecBuiltin bytes.
