(* Model of _BitMask (experimental/bits/simd.h 978-1322), the representation of
   simd_mask for fixed_size ABIs, and of _MaskImplFixedSize
   (experimental/bits/simd_fixed_size.h 1850-2062).

   The C++ template parameters _Np and _Sanitized are explicit arguments; a
   _BitMask object is its array _M_bits, a list of words (non-negative Z). *)
From Coq Require Import List ZArith Lia Bool Arith.
From Verif Require Import Prelude MaskSpec.
Import ListNotations.
Local Open Scope Z_scope.

(* simd.h 650-653: __div_roundup(a, b) = (a + b - 1) / b *)
Definition div_roundup (a b : nat) : nat := ((a + b - 1) / b)%nat.

(* std::__bit_ceil of <bit> (not in the repository): the least power of two
   not below x; only used for x >= 1.
   Helper for simd.h 978-1322, simd_fixed_size.h 1850-2062 *)
Definition bit_ceil (x : nat) : nat := (2 ^ Nat.log2_up x)%nat.

(* std::__countr_zero of <bit> for a non-zero word: index of the lowest set
   bit.  (For 0 the C++ function returns the width; see countr_zero.);
   helper for simd.h 978-1322, simd_fixed_size.h 1850-2062 *)
Fixpoint ctz_pos (p : positive) : nat :=
  match p with
  | xO q => S (ctz_pos q)
  | _ => O
  end.

(* std::__countr_zero of <bit> on a w-bit word;
   helper for simd.h 978-1322, simd_fixed_size.h 1850-2062 *)
Definition countr_zero (w : nat) (x : Z) : nat :=
  match x with
  | Zpos p => ctz_pos p
  | _ => w
  end.

(* std::__bit_width of <bit>: 0 for 0, else floor(log2 x) + 1;
   helper for simd.h 978-1322, simd_fixed_size.h 1850-2062 *)
Definition bit_width (x : Z) : Z := if x =? 0 then 0 else Z.log2 x + 1.

(* __builtin_popcountll; helper for simd.h 978-1322, simd_fixed_size.h 1850-2062 *)
Fixpoint popcount_pos (p : positive) : nat :=
  match p with
  | xH => 1
  | xO q => popcount_pos q
  | xI q => S (popcount_pos q)
  end.
(* simd.h 650-653 *)
Definition popcount (x : Z) : nat :=
  match x with Zpos p => popcount_pos p | _ => O end.

(* simd.h 983: _NBytes *)
Definition bm_nbytes (n : nat) : nat := div_roundup n 8.

(* simd.h 985-987: sizeof(_Tp): bool (1 byte) for N = 1, else the unsigned
   integer of min(8, bit_ceil(_NBytes)) bytes *)
Definition bm_word_bytes (n : nat) : nat :=
  if Nat.eqb n 1 then 1%nat else Nat.min 8 (bit_ceil (bm_nbytes n)).

(* value bits of one word of _M_bits: a bool has one value bit;
   helper for simd.h 978-1322, simd_fixed_size.h 1850-2062 *)
Definition bm_word_bits (n : nat) : nat :=
  if Nat.eqb n 1 then 1%nat else (8 * bm_word_bytes n)%nat.

(* simd.h 989: _S_array_size *)
Definition bm_array_size (n : nat) : nat :=
  div_roundup (bm_nbytes n) (bm_word_bytes n).

(* simd.h 993-994: _S_unused_bits *)
Definition bm_unused_bits (n : nat) : nat :=
  if Nat.eqb n 1 then 0%nat
  else (bm_array_size n * bm_word_bytes n * 8 - n)%nat.

(* simd.h 996: _S_bitmask = +_Tp(~_Tp()) >> _S_unused_bits *)
Definition bm_bitmask (n : nat) : Z :=
  Z.shiftr (Z.ones (Z.of_nat (bm_word_bits n))) (Z.of_nat (bm_unused_bits n)).

(* static_cast<_Tp>(x): truncation, or x != 0 when _Tp is bool;
   helper for simd.h 978-1322, simd_fixed_size.h 1850-2062 *)
Definition bm_to_word (n : nat) (x : Z) : Z :=
  if Nat.eqb n 1 then (if x =? 0 then 0 else 1)
  else x mod 2 ^ Z.of_nat (bm_word_bits n).

(* simd.h 978-: the object: its words *)
Definition bitmask := list Z.

(* simd.h 998 and the value-initialised "= {}" objects: all words zero *)
Definition bm_zero (n : nat) : bitmask := repeat 0 (bm_array_size n).

(* simd.h 1000-1001: _BitMask(unsigned long long): first word converted, the
   remaining ones zero; performs no sanitising *)
Definition bm_of_ullong (n : nat) (x : Z) : bitmask :=
  match bm_zero n with
  | [] => []
  | _ :: t => bm_to_word n x :: t
  end.

(* simd.h 1018-1038: _M_to_bits / to_ullong / to_ulong (array size 1) *)
Definition bm_to_ullong (b : bitmask) : Z := nth 0 b 0.

(* simd.h 1049-1065: _M_sanitized *)
Definition bm_sanitized (n : nat) (san : bool) (b : bitmask) : bitmask :=
  if san then b
  else if Nat.eqb n 1 then bm_of_ullong 1 (nth 0 b 0)
  else if Nat.ltb 0 (bm_unused_bits n)
       then upd b (bm_array_size n - 1)
                (Z.land (nth (bm_array_size n - 1) b 0) (bm_bitmask n))
       else b.

(* simd.h 1067-1082: this->_M_prepend(lsb) where this has n bits and lsb m
   bits; only defined (compiles) when the result fits one word *)
Definition bm_prepend (n m : nat) (lsan : bool) (b lsb : bitmask) : bitmask :=
  bm_of_ullong (n + m)
    (Z.lor (bm_to_word (n + m)
              (Z.shiftl (bm_to_word (n + m) (nth 0 b 0)) (Z.of_nat m)))
           (nth 0 (bm_sanitized m lsan lsb) 0)).

(* simd.h 1098-1102: the _Sanitized flag of the result of _M_extract *)
Definition bm_extract_flag (n : nat) (san : bool) (drop new : nat) : bool :=
  if Nat.eqb new 1 then true
  else (Nat.eqb (new + drop) (8 * bm_word_bytes n) && Nat.leb (new + drop) n)
       || ((san || Nat.eqb n (8 * bm_word_bytes n)) && Nat.leb n (new + drop)).

(* simd.h 1087-1104: _M_extract<_DropLsb, _NewSize> *)
Definition bm_extract (n drop new : nat) (b : bitmask) : bitmask :=
  if Nat.eqb new 1
  then bm_of_ullong 1 (Z.land (nth 0 b 0) (Z.shiftl 1 (Z.of_nat drop)))
  else bm_of_ullong new (Z.shiftr (nth 0 b 0) (Z.of_nat drop)).

(* simd.h 1106-1123: all(); bm_all_san is the _Sanitized instance *)
Definition bm_all_san (n : nat) (b : bitmask) : bool :=
  if Nat.eqb n 1 then negb (nth 0 b 0 =? 0)
  else forallb (fun i => nth i b 0 =? Z.ones (Z.of_nat (bm_word_bits n)))
         (seq 0 (bm_array_size n - 1))
       && (nth (bm_array_size n - 1) b 0 =? bm_bitmask n).
(* simd.h 1106-1123 *)
Definition bm_all (n : nat) (san : bool) (b : bitmask) : bool :=
  if Nat.eqb n 1 then negb (nth 0 b 0 =? 0)
  else bm_all_san n (bm_sanitized n san b).

(* simd.h 1125-1140: any() *)
Definition bm_any_san (n : nat) (b : bitmask) : bool :=
  if Nat.eqb n 1 then negb (nth 0 b 0 =? 0)
  else existsb (fun i => negb (nth i b 0 =? 0)) (seq 0 (bm_array_size n - 1))
       || negb (nth (bm_array_size n - 1) b 0 =? 0).
(* simd.h 1125-1140 *)
Definition bm_any (n : nat) (san : bool) (b : bitmask) : bool :=
  if Nat.eqb n 1 then negb (nth 0 b 0 =? 0)
  else bm_any_san n (bm_sanitized n san b).

(* simd.h 1142-1157: none() *)
Definition bm_none_san (n : nat) (b : bitmask) : bool :=
  if Nat.eqb n 1 then (nth 0 b 0 =? 0)
  else negb (existsb (fun i => negb (nth i b 0 =? 0)) (seq 0 (bm_array_size n - 1)))
       && (nth (bm_array_size n - 1) b 0 =? 0).
(* simd.h 1142-1157 *)
Definition bm_none (n : nat) (san : bool) (b : bitmask) : bool :=
  if Nat.eqb n 1 then (nth 0 b 0 =? 0)
  else bm_none_san n (bm_sanitized n san b).

(* simd.h 1160-1175: count().  As written: for an unsanitized mask the code
   returns _M_sanitized().none() (a bool converted to int). *)
Definition bm_count (n : nat) (san : bool) (b : bitmask) : nat :=
  if Nat.eqb n 1 then (if nth 0 b 0 =? 0 then 0%nat else 1%nat)
  else if negb san
       then (if bm_none n true (bm_sanitized n san b) then 1%nat else 0%nat)
       else fold_left (fun acc i => Nat.add acc (popcount (nth i b 0)))
              (seq 1 (bm_array_size n - 1)) (popcount (nth 0 b 0)).

(* simd.h 1177-1191: operator[](size_t) *)
Definition bm_get (n : nat) (b : bitmask) (i : nat) : bool :=
  if Nat.eqb n 1 then negb (nth 0 b 0 =? 0)
  else if Nat.eqb (bm_array_size n) 1
       then negb (Z.land (Z.shiftr (nth 0 b 0) (Z.of_nat i)) 1 =? 0)
       else negb (Z.land (Z.shiftr (nth (i / (bm_word_bytes n * 8))%nat b 0)
                            (Z.of_nat (i mod (bm_word_bytes n * 8))%nat)) 1 =? 0).

(* simd.h 1193-1201: operator[](_SizeConstant<i>) *)
Definition bm_get_const (n : nat) (b : bitmask) (i : nat) : bool :=
  negb (Z.land (nth (i / (bm_word_bytes n * 8))%nat b 0)
          (Z.shiftl 1 (Z.of_nat (i mod (bm_word_bytes n * 8))%nat)) =? 0).

(* the bool-to-word conversion _Tp(__x);
   helper for simd.h 978-1322, simd_fixed_size.h 1850-2062 *)
Definition b2z (x : bool) : Z := if x then 1 else 0.

(* simd.h 1203-1221: set(size_t, bool).  The overload taking a
   _SizeConstant (1223-1238) computes the same word and is not modelled
   separately. *)
Definition bm_set (n : nat) (b : bitmask) (i : nat) (x : bool) : bitmask :=
  if Nat.eqb n 1 then upd b 0 (b2z x)
  else
    let w := Z.of_nat (bm_word_bits n) in
    let j := if Nat.eqb (bm_array_size n) 1 then 0%nat
             else (i / (bm_word_bytes n * 8))%nat in
    let s := if Nat.eqb (bm_array_size n) 1 then i
             else (i mod (bm_word_bytes n * 8))%nat in
    (* M_bits[j] &= ~_Tp(_Tp(1) << s); M_bits[j] |= _Tp(_Tp(x) << s) *)
    let cleared := Z.land (nth j b 0)
                     ((Z.lnot ((Z.shiftl 1 (Z.of_nat s)) mod 2 ^ w)) mod 2 ^ w) in
    upd b j (Z.lor cleared ((Z.shiftl (b2z x) (Z.of_nat s)) mod 2 ^ w)).

(* simd.h 1240-1258: operator~ *)
Definition bm_not (n : nat) (san : bool) (b : bitmask) : bitmask :=
  if Nat.eqb n 1 then [if nth 0 b 0 =? 0 then 1 else 0]
  else
    let w := Z.of_nat (bm_word_bits n) in
    let last := nth (bm_array_size n - 1) b 0 in
    map (fun i => (Z.lnot (nth i b 0)) mod 2 ^ w) (seq 0 (bm_array_size n - 1))
    ++ [if san then Z.lxor last (bm_bitmask n) else (Z.lnot last) mod 2 ^ w].

(* simd.h 1260-1282 and 1284-1306: ^=, |=, &= and the binary operators:
   word-wise over _S_array_size words *)
Definition bm_xor (a b : bitmask) : bitmask := map2 Z.lxor a b.
(* simd.h 1260-1282, 1284-1306 *)
Definition bm_or (a b : bitmask) : bitmask := map2 Z.lor a b.
(* simd.h 1260-1282, 1284-1306 *)
Definition bm_and (a b : bitmask) : bitmask := map2 Z.land a b.

(* ------------------------------------------------------------------ *)
(* _MaskImplFixedSize: _MaskMember is _SanitizedBitMask<_Np>            *)

(* simd_fixed_size.h 1870-1874: _S_broadcast *)
Definition fsm_broadcast (n : nat) (x : bool) : bitmask :=
  if x then bm_not n true (bm_zero n) else bm_zero n.

(* simd_fixed_size.h 1964-1987: logical and bitwise operators *)
Definition fsm_logical_and (a b : bitmask) : bitmask := bm_and a b.
(* simd_fixed_size.h 1964-1987 *)
Definition fsm_logical_or (a b : bitmask) : bitmask := bm_or a b.
(* simd_fixed_size.h 1964-1987 *)
Definition fsm_bit_not (n : nat) (a : bitmask) : bitmask := bm_not n true a.
(* simd_fixed_size.h 1964-1987 *)
Definition fsm_bit_and (a b : bitmask) : bitmask := bm_and a b.
(* simd_fixed_size.h 1964-1987 *)
Definition fsm_bit_or (a b : bitmask) : bitmask := bm_or a b.
(* simd_fixed_size.h 1964-1987 *)
Definition fsm_bit_xor (a b : bitmask) : bitmask := bm_xor a b.

(* simd_fixed_size.h 1989-1992: _S_set *)
Definition fsm_set (n : nat) (k : bitmask) (i : nat) (x : bool) : bitmask :=
  bm_set n k i x.

(* simd_fixed_size.h 1994-1998: _S_masked_assign(k, lhs, rhs mask) *)
Definition fsm_masked_assign (n : nat) (k lhs rhs : bitmask) : bitmask :=
  bm_or (bm_and lhs (bm_not n true k)) (bm_and rhs k).

(* simd_fixed_size.h 2000-2009: _S_masked_assign(k, lhs, bool) *)
Definition fsm_masked_assign_bool (n : nat) (k lhs : bitmask) (rhs : bool) : bitmask :=
  if rhs then bm_or lhs k else bm_and lhs (bm_not n true k).

(* simd_fixed_size.h 2012-2059: _S_all_of .. _S_find_last_set *)
Definition fsm_all_of (n : nat) (k : bitmask) : bool := bm_all n true k.
(* simd_fixed_size.h 2012-2059 *)
Definition fsm_any_of (n : nat) (k : bitmask) : bool := bm_any n true k.
(* simd_fixed_size.h 2012-2059 *)
Definition fsm_none_of (n : nat) (k : bitmask) : bool := bm_none n true k.
(* simd_fixed_size.h 2012-2059 *)
Definition fsm_some_of (n : nat) (k : bitmask) : bool :=
  if Nat.eqb n 1 then false else bm_any n true k && negb (bm_all n true k).
(* simd_fixed_size.h 2012-2059 *)
Definition fsm_popcount (n : nat) (k : bitmask) : nat := bm_count n true k.
(* simd_fixed_size.h 2012-2059 *)
Definition fsm_find_first_set (k : bitmask) : nat := countr_zero 64 (bm_to_ullong k).
(* simd_fixed_size.h 2012-2059 *)
Definition fsm_find_last_set (k : bitmask) : Z := bit_width (bm_to_ullong k) - 1.

(* simd.h 4490-4496: operator== and operator!= of simd_mask: == is !(x != y)
   and != is _S_bit_xor; operator! (4413-4415) is _S_bit_not *)
Definition fsm_eq (n : nat) (a b : bitmask) : bitmask := bm_not n true (bm_xor a b).
(* simd.h 4490-4496, 4413-4415 *)
Definition fsm_ne (a b : bitmask) : bitmask := bm_xor a b.

(* simd.h 879-895: _BitOps::_S_bit_iteration: the list of arguments f is
   called with, in order.  [None]: the loop did not finish within [fuel]
   iterations. *)
Fixpoint bit_iteration (fuel : nat) (k : Z) : option (list nat) :=
  if k =? 0 then Some []
  else match fuel with
       | O => None
       | S f => option_map (cons (countr_zero 64 k))
                           (bit_iteration f (Z.land k (k - 1)))
       end.

(* __builtin_ctzl: the result for 0 is undefined (None);
   helper for simd.h 978-1322, simd_fixed_size.h 1850-2062 *)
Definition builtin_ctzl (k : Z) : option nat :=
  match k with Zpos p => Some (ctz_pos p) | _ => None end.

(* simd.h 3380-3396: where_range::iterator: (__mask, __bit); the constructor
   calls __next_bit *)
Definition wr_iterator : Type := (Z * option nat)%type.
(* simd.h 3380-3396 *)
Definition wr_make (m : Z) : wr_iterator := (m, builtin_ctzl m).

(* simd.h 3406-3411 (operator++), 3388-3393 (__reset_lsb) *)
Definition wr_next (it : wr_iterator) : wr_iterator :=
  let m := Z.land (fst it) (fst it - 1) in (m, builtin_ctzl m).

(* simd.h 3428-3432 and the range-based for loop: the values of *it visited
   between begin() and end(); the iterators are compared by __mask (3421-3425).
   [None]: loop not finished within [fuel] iterations. *)
Fixpoint wr_loop (fuel : nat) (it last : wr_iterator) : option (list (option nat)) :=
  if fst it =? fst last then Some []
  else match fuel with
       | O => None
       | S f => option_map (cons (snd it)) (wr_loop f (wr_next it) last)
       end.
(* simd.h 3428-3432, 3421-3425 *)
Definition where_range (fuel : nat) (bits : Z) : option (list (option nat)) :=
  wr_loop fuel (wr_make bits) (wr_make 0).

(* simd.h 3385-3396, 3428-3432: the arguments __builtin_ctzl is evaluated on
   during "for (auto i : where(k))": once by begin(), once by end() and once by
   every ++ *)
Fixpoint wr_ctz_inc (fuel : nat) (m : Z) : list Z :=
  if m =? 0 then []
  else match fuel with
       | O => []
       | S f => let m' := Z.land m (m - 1) in m' :: wr_ctz_inc f m'
       end.
(* simd.h 3385-3396, 3428-3432 *)
Definition wr_ctz_args (fuel : nat) (bits : Z) : list Z :=
  bits :: 0 :: wr_ctz_inc fuel bits.

(* std::bitset<N>::to_ullong(): bit i of the result is element i;
   helper for simd.h 978-1322, simd_fixed_size.h 1850-2062 *)
Fixpoint bits_to_Z (l : list bool) : Z :=
  match l with
  | [] => 0
  | b :: t => b2z b + 2 * bits_to_Z t
  end.

(* simd.h 4322-4324 (__from_bitset), 4517-4521 (bitset ctor), 1003
   (_BitMask(bitset)) and simd_fixed_size.h 1915-1919 (_S_from_bitmask is the
   identity): __from_bitset
   for fixed_size masks with N <= 64 *)
Definition fsm_from_bitset (n : nat) (l : list bool) : bitmask :=
  bm_of_ullong n (bits_to_Z l).

(* simd.h 4326-4328 (__to_bitset), 1042-1047 (_M_to_bitset), simd_fixed_size.h 1893-1902
   (_S_to_bits):
   __to_bitset: the bitset constructed from the word *)
Definition fsm_to_bitset (n : nat) (b : bitmask) : list bool :=
  map (fun i => Z.testbit (bm_to_ullong b) (Z.of_nat i)) (seq 0 n).

(* simd.h 4505-4516: private generator construction: value-initialised
   mask, then _S_set for i = 0 .. size()-1 *)
Definition fsm_generate (n : nat) (g : nat -> bool) : bitmask :=
  fold_left (fun k i => fsm_set n k i (g i)) (seq 0 n) (bm_zero n).

(* ------------------------------------------------------------------ *)
(* Object invariants and observation                                   *)

(* the object has _S_array_size words, each within the range of _Tp;
   helper for simd.h 978-1322, simd_fixed_size.h 1850-2062 *)
Definition bm_wf (n : nat) (b : bitmask) : Prop :=
  length b = bm_array_size n /\
  Forall (fun x => 0 <= x < 2 ^ Z.of_nat (bm_word_bits n))%Z b.

(* bit i of the concatenated words;
   helper for simd.h 978-1322, simd_fixed_size.h 1850-2062 *)
Definition bm_bit (n : nat) (b : bitmask) (i : nat) : bool :=
  Z.testbit (nth (i / bm_word_bits n)%nat b 0) (Z.of_nat (i mod bm_word_bits n)%nat).

(* simd.h 993-996, 1049-1065: what _Sanitized promises: all bits at positions
   >= N are zero *)
Definition bm_clean (n : nat) (b : bitmask) : Prop :=
  bm_wf n b /\
  forall i, (n <= i < bm_array_size n * bm_word_bits n)%nat -> bm_bit n b i = false.

(* simd.h 4401-4410: the mask as seen through operator[] *)
Definition bm_list (n : nat) (b : bitmask) : list bool := map (bm_get n b) (seq 0 n).

(* evaluation of a mask program with the operations of _MaskImplFixedSize,
   dispatched as in simd.h 4413-4496 *)
Fixpoint fsm_eval (n : nat) (e : mexpr) : bitmask :=
  match e with
  | EBroadcast x => fsm_broadcast n x
  | EBitset l => fsm_from_bitset n l
  | EGen g => fsm_generate n g
  | ENot a => fsm_bit_not n (fsm_eval n a)
  | EAnd a b => fsm_bit_and (fsm_eval n a) (fsm_eval n b)
  | EOr a b => fsm_bit_or (fsm_eval n a) (fsm_eval n b)
  | EXor a b => fsm_bit_xor (fsm_eval n a) (fsm_eval n b)
  | ELAnd a b => fsm_logical_and (fsm_eval n a) (fsm_eval n b)
  | ELOr a b => fsm_logical_or (fsm_eval n a) (fsm_eval n b)
  | EEq a b => fsm_eq n (fsm_eval n a) (fsm_eval n b)
  | ENe a b => fsm_ne (fsm_eval n a) (fsm_eval n b)
  | ESet a i x => fsm_set n (fsm_eval n a) i x
  | EAssign k a b => fsm_masked_assign n (fsm_eval n k) (fsm_eval n a) (fsm_eval n b)
  | EAssignB k a x => fsm_masked_assign_bool n (fsm_eval n k) (fsm_eval n a) x
  end.
