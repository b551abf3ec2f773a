(* __shift_elements_right and __extract_part, byte by byte: simd_builtin.h 97-268.  (The
   models of casts and split use versions that shift lanes, Convert.v.)  A register is the
   list of its bytes, lowest address first. *)
From Coq Require Import List Arith Bool.
From Verif Require Import Prelude BitMask Abi.
Import ListNotations.

(* what the code asks about the target: _GLIBCXX_SIMD_X86INTRIN and __have_*;
   helper for simd_builtin.h 97-268 *)
Record target := { t_x86 : bool; t_sse : bool; t_sse2 : bool; t_avx : bool; t_avx2 : bool; t_avx512f : bool; t_avx512bw : bool }.
(* value types of vectors, as far as the code distinguishes them;
   helper for simd_builtin.h 97-268 *)
Inductive vtype := VFloat | VDouble | VOther.

Section Bytes.
Context {A : Type} (zero : A).
(* simd_builtin.h 97-268 *)
Definition zeros (n : nat) : list A := repeat zero n.
(* simd.h 1906-2038 (__zero_extend), 2041-2078 (__extract), 2112-2152 (__lo128, __hi128, __hi256) *)
Definition zero_extend (n : nat) (v : list A) : list A := v ++ zeros (n - length v).
(* simd.h 1906-2038, 2041-2078, 2112-2152 *)
Definition extract (i bytes : nat) (v : list A) : list A := firstn bytes (skipn (i * bytes) v).
(* simd.h 1906-2038, 2041-2078, 2112-2152 *)
Definition lo128 (v : list A) : list A := extract 0 16 v.
(* simd.h 1906-2038, 2041-2078, 2112-2152 *)
Definition hi128 (v : list A) : list A := extract 1 16 v.
(* simd.h 1906-2038, 2041-2078, 2112-2152 *)
Definition hi256 (v : list A) : list A := extract 1 32 v.
(* psrldq (used in simd_builtin.h 119): bytes to the right, zeros from the left *)
Definition srli_si128 (v : list A) (k : nat) : list A := firstn 16 (skipn k v ++ zeros k).
(* palignr on 16 bytes (used in simd_builtin.h 138-143, 241-246): the bytes k .. k+15 of b
   followed by a *)
Definition alignr16 (a b : list A) (k : nat) : list A := firstn 16 (skipn k (b ++ a) ++ zeros k).
(* vpalignr on 32 and 64 bytes (used in simd_builtin.h 131-135, 165-181): in every block of 16 *)
Definition alignr_blocks (n : nat) (a b : list A) (k : nat) : list A :=
  flat_map (fun i => alignr16 (extract i 16 a) (extract i 16 b) k) (seq 0 n).
(* vperm2i128 with 0x81 (used in simd_builtin.h 132): the high half of the second source
   in the low half, and zero *)
Definition permute2x128_81 (v : list A) : list A := hi128 v ++ zeros 16.
(* vshufi32x4 (used in simd_builtin.h 168, 175-176): two blocks of a and two of b, two bits
   each *)
Definition shuffle_i32x4 (a b : list A) (imm : nat) : list A :=
  extract (imm mod 4) 16 a ++ extract (imm / 4 mod 4) 16 a ++ extract (imm / 16 mod 4) 16 b ++ extract (imm / 64 mod 4) 16 b.
(* valignq, valignd (used in simd_builtin.h 158-164): elements of w bytes of b followed by a *)
Definition alignr512 (w : nat) (a b : list A) (k : nat) : list A := firstn 64 (skipn (w * k) (b ++ a)).
(* movhlps, unpckhpd (used in simd_builtin.h 112, 116): the high halves of both operands *)
Definition movehl (v : list A) : list A := skipn 8 v ++ skipn 8 v.
(* simd_builtin.h 188-200: chunks of 8, 4, 2 or 1 bytes, the rest zero *)
Definition shift_chunks (shift : nat) (v : list A) : list A :=
  let c := if shift mod 8 =? 0 then 8 else if shift mod 4 =? 0 then 4 else if shift mod 2 =? 0 then 2 else 1 in
  let w i := extract i c v in
  zero_extend (length v) (flat_map (fun i => w (shift / c + i)) (seq 0 ((length v - shift) / c))).
(* simd_builtin.h 97-202: __shift_elements_right for 16-byte vectors (and for smaller
   ones, which have only the generic branch); shift > sizeof is ruled out by the static_assert *)
Definition shift16 (T : target) (t : vtype) (shift : nat) (v : list A) : list A :=
  if shift =? 0 then v
  else if shift =? length v then zeros (length v)
  else if t_x86 T && t_sse T && (shift =? 8) && (length v =? 16) && match t with VFloat => true | _ => false end then movehl v
  else if t_x86 T && t_sse2 T && (shift =? 8) && (length v =? 16) && match t with VDouble => true | _ => false end then movehl v
  else if t_x86 T && t_sse2 T && (length v =? 16) then srli_si128 v shift
  else shift_chunks shift v.
(* for 32-byte vectors; helper for simd_builtin.h 97-268 *)
Definition shift32 (T : target) (t : vtype) (shift : nat) (v : list A) : list A :=
  if shift =? 0 then v
  else if shift =? 32 then zeros 32
  else if t_x86 T && (shift =? 16) then zero_extend 32 (hi128 v)
  else if t_x86 T && t_avx2 T && (shift <? 16) then alignr_blocks 2 (permute2x128_81 v) v shift
  else if t_x86 T && t_avx T && (shift <? 16) then alignr16 (hi128 v) (lo128 v) shift ++ srli_si128 (hi128 v) shift
  else if t_x86 T && (16 <? shift) then zero_extend 32 (shift16 T t (shift - 16) (hi128 v))
  else shift_chunks shift v.
(* for 64-byte vectors; None: __assert_unreachable; helper for simd_builtin.h 97-268 *)
Definition shift64 (T : target) (t : vtype) (shift : nat) (v : list A) : option (list A) :=
  if shift =? 0 then Some v
  else if shift =? 64 then Some (zeros 64)
  else if t_x86 T && (shift =? 32) then Some (zero_extend 64 (hi256 v))
  else if t_x86 T && t_avx512f T then
    if 48 <=? shift then Some (zero_extend 64 (shift16 T t (shift - 48) (extract 3 16 v)))
    else if 32 <=? shift then Some (zero_extend 64 (shift32 T t (shift - 32) (hi256 v)))
    else if shift mod 8 =? 0 then Some (alignr512 8 (zeros 64) v (shift / 8))
    else if shift mod 4 =? 0 then Some (alignr512 4 (zeros 64) v (shift / 4))
    else if t_avx512bw T && (shift <? 16) then Some (alignr_blocks 4 (shuffle_i32x4 v v 249) v shift)
    else if t_avx512bw T && (shift <? 32) then
      Some (alignr_blocks 4 (shuffle_i32x4 v (zeros 64) 238) (shuffle_i32x4 v v 249) (shift - 16))
    else None
  else Some (shift_chunks shift v).
(* simd_builtin.h 97-202 *)
Definition shift_right (T : target) (t : vtype) (shift : nat) (v : list A) : option (list A) :=
  if length v <? shift then None
  else if length v =? 64 then shift64 T t shift v
  else if length v =? 32 then Some (shift32 T t shift v)
  else Some (shift16 T t shift v).

(* simd_builtin.h 204-268: __extract_part<index, total, combine> of np elements of sz
   bytes; rbytes: sizeof of the type of the result as a function of its number of
   elements; constant: _M_is_constprop().  None: a failed static_assert, or
   shift_right *)
Fixpoint extract_bytes (T : target) (t : vtype) (rbytes : nat -> nat) (constant : bool) (sz np : nat) (x : list A)
    (fuel index total combine : nat) : option (list A) :=
  if (index mod 2 =? 0) && (total mod 2 =? 0) && (combine mod 2 =? 0) then
    match fuel with
    | S f => extract_bytes T t rbytes constant sz np x f (index / 2) (total / 2) (combine / 2)
    | O => None
    end
  else
    let vpp := np / total in
    let skip := index * vpp in
    let ret := vpp * combine in
    if length x <? (index + combine) * vpp * sz then None
    else if constant then Some (zero_extend (rbytes ret) (flat_map (fun i => extract (skip + i) sz x) (seq 0 ret)))
    else if (index =? 0) && (total =? 1) then Some x
    else if index =? 0 then Some (firstn (rbytes ret) x)
    else if t_x86 T && (length x =? 32) && (ret * sz <=? 16) then
      if skip * sz =? 16 then Some (firstn (rbytes ret) (hi128 x))
      else Some (firstn (rbytes ret) (alignr16 (hi128 x) (lo128 x) (skip * sz)))
    else if (negb (skip mod ret =? 0) || (8 <=? rbytes ret)) && ((skip + ret) * sz <=? 64) && (16 <=? length x) then
      option_map (firstn (rbytes ret)) (shift_right T t (skip * sz) x)
    else Some (zero_extend (rbytes ret) (firstn (ret * sz) (skipn (skip * sz) x))).
End Bytes.
