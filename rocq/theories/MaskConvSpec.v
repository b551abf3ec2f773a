(* What mask conversions must do: element i of the result is element i of the
   argument, and false beyond the elements of the argument (simd.h 2926-2936). *)
From Coq Require Import List ZArith Bool Arith.
From Verif Require Import Prelude BitMask KMask X86Mask X86MaskSpec MaskConv.
Import ListNotations.

(* the m elements of the result, given the elements l of the argument *)
Definition resized (m : nat) (l : list bool) : list bool := map (fun i => nth i l false) (seq 0 m).

(* the vector v has elements of t bytes; the first ones are l: all bits one, or
   all bits zero, and none of their bytes undefined *)
Definition shows (t : nat) (v : list byte) (l : list bool) : Prop :=
  forall i b, i < length l -> b < t ->
    nth (i * t + b) v None = Some (if nth i l false then 255%Z else 0%Z).

(* o is a mask with the elements l; other bits and lanes are arbitrary, except
   in a fixed_size mask, whose type promises that they are zero *)
Definition is_mask (o : mask_obj) (l : list bool) : Prop :=
  match o with
  | MBool b => l = [b]
  | MBits n k => 2 <= n <= 64 /\ length l = n /\ (0 <= k < 2 ^ Z.of_nat (kw n))%Z /\
      forall i, i < n -> Z.testbit k (Z.of_nat i) = nth i l false
  | MFixed n b => 1 <= n <= 64 /\ bm_clean n b /\ bm_list n b = l
  | MVec s x => shape_ok s /\ st s = bit_ceil (sn s) /\ holds s x l
  end.

(* bits and lanes beyond the elements are zero *)
Definition no_stray (o : mask_obj) : Prop :=
  match o with
  | MBits n k => (k < 2 ^ Z.of_nat n)%Z
  | MVec s x => forall i, sn s <= i < st s -> nth i x 0%Z = 0%Z
  | _ => True
  end.

(* the target machines: AVX512 implies AVX2 implies AVX implies SSSE3 *)
Definition cfeat_ok (ft : cfeat) : Prop :=
  (c_avx512vl ft = true -> c_avx512f ft = true) /\ (c_avx512bw ft = true -> c_avx512f ft = true) /\
  (c_avx512dq ft = true -> c_avx512f ft = true) /\ (c_avx512f ft = true -> c_avx2 ft = true) /\
  (c_avx2 ft = true -> c_avx ft = true) /\ (c_avx ft = true -> c_ssse3 ft = true).

(* a vector mask of m elements of t bytes that exists on the machine *)
Definition vec_dest (ft : cfeat) (t m : nat) : Prop :=
  (t = 1 \/ t = 2 \/ t = 4 \/ t = 8) /\ 2 <= m /\ t * m <= 32 /\
  (16 < t * m -> c_avx ft = true) /\ (16 < t * m -> t < 4 -> c_avx2 ft = true).
(* the machine has the registers of the argument *)
Definition vec_source (ft : cfeat) (o : mask_obj) : Prop :=
  match o with
  | MVec s _ => (16 < st s * sz s -> c_avx ft = true) /\ (16 < st s * sz s -> sz s < 4 -> c_avx2 ft = true)
  | _ => True
  end.

(* Conversions to a 32-byte vector that leave its upper half undefined: from a
   16-byte vector with elements of the same size, and from a 32-byte vector with
   larger elements; not for compile-time constants *)
Definition upper_undefined (const : bool) (t m : nat) (o : mask_obj) : Prop :=
  match o with
  | MVec s _ => const = false /\ 16 < t * m /\
      ((st s * sz s = 16 /\ t = sz s) \/ (st s * sz s = 32 /\ t < sz s))
  | _ => False
  end.
