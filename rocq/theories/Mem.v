(* Model of loads and stores: copy_from / copy_to of simd and where
   expressions.  /repo/experimental/bits/simd_builtin.h, simd_x86.h,
   simd_fixed_size.h, simd_scalar.h, simd.h.

   Memory is seen from the pointer the user passes: cell i is __mem[i], [None]
   if there is no such object (an access is undefined behaviour, result None).
   A register is the list of all its lanes.  Simplifications: cells hold whole
   elements (bytes in [x86_store] only); instructions that access memory under
   a mask do not access masked-off cells (Intel SDM: fault suppression). *)
From Coq Require Import List Arith Bool ZArith.
From Verif Require Import Prelude BitMask Abi Fixed.
Import ListNotations.

(* simd_builtin.h 1440-1633 *)
Definition mem (A : Type) := nat -> option A.
(* __mem + off; helper for simd_builtin.h 1440-1633, simd_x86.h 466-531, 845-1290 *)
Definition mshift {A} (m : mem A) (off : nat) : mem A := fun i => m (off + i).

(* __mem[i] = v; helper for simd_builtin.h 1440-1633, simd_x86.h 466-531, 845-1290 *)
Definition mwrite {A} (m : mem A) (i : nat) (v : A) : option (mem A) :=
  match m i with
  | None => None
  | Some _ => Some (fun j => if j =? i then Some v else m j)
  end.
(* simd_builtin.h 1440-1633 *)
Fixpoint mwrites {A} (m : mem A) (l : list (nat * A)) : option (mem A) :=
  match l with
  | [] => Some m
  | (i, v) :: r => match mwrite m i v with Some m' => mwrites m' r | None => None end
  end.
(* __builtin_memcpy(&x, __mem + off, n elements) and back;
   helper for simd_builtin.h 1440-1633, simd_x86.h 466-531, 845-1290 *)
Definition mread_range {A} (m : mem A) (off n : nat) : option (list A) := omapm m (seq off n).
(* simd_builtin.h 1440-1633 *)
Definition mwrite_range {A} (m : mem A) (off : nat) (l : list A) : option (mem A) :=
  mwrites m (combine (seq off (length l)) l).

(* ------------------------------------------------------------------ *)
(* loads                                                                *)

(* simd_builtin.h 1440-1443: __max_load_size *)
Definition max_load_size (I : isa) (u : elem) : nat :=
  if ((4 <=? esize u) && have_avx512f I) || have_avx512bw I then 64
  else if (efloating u && have_avx I) || have_avx2 I then 32
  else 16.

(* simd_builtin.h 1233-1274: _CommonImplBuiltin::_S_load of n elements into a
   register with full lanes; the rest of the register is zero *)
Definition common_load {A} (zero : A) (n full : nat) (m : mem A) : option (list A) :=
  option_map (fun l => l ++ repeat zero (full - n)) (mread_range m 0 n).

(* simd_builtin.h 286-519 (__vector_convert), as used by __convert: lanes of
   the arguments, converted one by one, as many as the result has *)
Definition vconvert {U T} (conv : U -> T) (zero : T) (full : nat) (l : list U) : list T :=
  firstn full (map conv l) ++ repeat zero (full - length l).

(* simd_builtin.h 1449-1458, 1461-1471: n_loads loads of _Np / n_loads elements *)
Definition multi_load {U T} (conv : U -> T) (zu : U) (zero : T) (n full nloads : nat) (m : mem U)
  : option (list T) :=
  let epl := n / nloads in
  option_map (fun ls => vconvert conv zero full (concat ls))
    (omapm (fun i => common_load zu epl (bit_ceil epl) (mshift m (i * epl))) (seq 0 nloads)).

(* simd_builtin.h 1435-1490: _SimdImplBuiltin::_S_load.  conv is
   static_cast<_Tp>, the identity if same (is_same_v<_Up, _Tp>) *)
Definition vec_load {U T} (I : isa) (u : elem) (same : bool) (conv : U -> T) (zu : U) (zero : T)
    (n full : nat) (m : mem U) : option (list T) :=
  let maxl := max_load_size I u in
  let bytes := esize u * n in
  if 8 <? esize u then
    omapm (fun i => if i <? n then option_map conv (m i) else Some (conv zu)) (seq 0 full)
  else if same then
    option_map (map conv) (common_load zu n full m)
  else if bytes <=? maxl then
    option_map (vconvert conv zero full) (common_load zu n (bit_ceil n) m)
  else if bytes mod maxl =? 0 then multi_load conv zu zero n full (bytes / maxl) m
  else if (bytes mod (maxl / 2) =? 0) && (16 <? maxl) then
    multi_load conv zu zero n full (bytes / (maxl / 2)) m
  else
    option_map (fun l => map conv l ++ repeat zero (full - n)) (omapm m (seq 0 n)).

(* simd_scalar.h 154-159: _SimdImplScalar::_S_load *)
Definition scalar_load {U T} (conv : U -> T) (m : mem U) : option (list T) :=
  option_map (fun x => [conv x]) (m 0).

(* one register of a tuple: the scalar ABI's has one lane;
   helper for simd_builtin.h 1440-1633, simd_x86.h 466-531, 845-1290 *)
Definition reg_load {U T} (I : isa) (u : elem) (same : bool) (conv : U -> T) (zu : U) (zero : T)
    (n full : nat) (m : mem U) : option (list T) :=
  if full =? 1 then scalar_load conv m else vec_load I u same conv zu zero n full m.

(* simd_fixed_size.h 1334-1342: _SimdImplFixedSize::_S_load *)
Fixpoint fs_load {U T} (ld : nat -> nat -> mem U -> option (list T)) (s : shape) (off : nat)
    (m : mem U) : option (tuple T) :=
  match s with
  | [] => Some []
  | (n, l) :: r =>
      match ld n l (mshift m off), fs_load ld r (off + n) m with
      | Some reg, Some t => Some (Chunk n reg :: t)
      | _, _ => None
      end
  end.

(* ------------------------------------------------------------------ *)
(* stores                                                               *)

(* simd_builtin.h 1379-1380 (16) and simd_x86.h 842-846: _S_max_store_size *)
Definition max_store_size (x86 : bool) (I : isa) (u : elem) : nat :=
  if x86 then max_load_size I u else 16.

(* simd_builtin.h 1278-1317: _S_store of the first n elements of a register
   (the temporary copy of 1302-1308 never reaches the user's memory) *)
Definition common_store {A} (n : nat) (reg : list A) (off : nat) (m : mem A) : option (mem A) :=
  mwrite_range m off (firstn n reg).

(* lanes [i * w, (i + 1) * w) of a register;
   helper for simd_builtin.h 1440-1633, simd_x86.h 466-531, 845-1290 *)
Definition slice {A} (w i : nat) (l : list A) : list A := firstn w (skipn (i * w) l).

(* simd_builtin.h 1505-1540: _SimdImplBuiltin::_S_store; conv is static_cast<_Up>.
   __convert_all<_V, __stores> (559-799) is modelled by its meaning: part i has
   the converted lanes from i * __vsize on. *)
Fixpoint store_parts {A} (vsize : nat) (is : list nat) (reg : list A) (m : mem A) : option (mem A) :=
  match is with
  | [] => Some m
  | i :: r =>
      match common_store vsize (slice vsize i reg) (i * vsize) m with
      | Some m' => store_parts vsize r reg m'
      | None => None
      end
  end.
(* simd_builtin.h 1505-1540, 559-799 *)
Definition vec_store {T U} (x86 : bool) (I : isa) (u : elem) (same : bool) (conv : T -> U)
    (n : nat) (reg : list T) (m : mem U) : option (mem U) :=
  let maxs := max_store_size x86 I u in
  if 8 <? esize u then
    mwrites m (combine (seq 0 n) (map conv (firstn n reg)))
  else if same then common_store n (map conv reg) 0 m
  else if esize u * n <=? maxs then common_store n (map conv reg) 0 m
  else
    let vsize := maxs / esize u in
    let stores := div_roundup n vsize in
    let full_stores := n / vsize in
    match store_parts vsize (seq 0 full_stores) (map conv reg) m with
    | None => None
    | Some m' =>
        if full_stores <? stores then
          common_store (n - full_stores * vsize) (slice vsize full_stores (map conv reg))
            (full_stores * vsize) m'
        else Some m'
    end.

(* simd_scalar.h 172-178: _SimdImplScalar::_S_store *)
Definition scalar_store {T U} (conv : T -> U) (reg : list T) (m : mem U) : option (mem U) :=
  match reg with
  | x :: _ => mwrite m 0 (conv x)
  | [] => None
  end.

(* simd_builtin.h 1505-1540 or, for one element, simd_scalar.h 172-178 *)
Definition reg_store {T U} (x86 : bool) (I : isa) (u : elem) (same : bool) (conv : T -> U)
    (n : nat) (reg : list T) (m : mem U) : option (mem U) :=
  if length reg =? 1 then scalar_store conv reg m else vec_store x86 I u same conv n reg m.

(* a function on memory applied to __mem + off;
   helper for simd_builtin.h 1440-1633, simd_x86.h 466-531, 845-1290 *)
Definition at_offset {U} (f : mem U -> option (mem U)) (off : nat) (m : mem U) : option (mem U) :=
  option_map (fun m' j => if j <? off then m j else m' (j - off)) (f (mshift m off)).

(* simd_fixed_size.h 1370-1378: _SimdImplFixedSize::_S_store *)
Fixpoint fs_store {T U} (st : nat -> list T -> mem U -> option (mem U)) (off : nat) (x : tuple T)
    (m : mem U) : option (mem U) :=
  match x with
  | [] => Some m
  | c :: r =>
      match at_offset (st (csize c) (creg c)) off m with
      | Some m' => fs_store st (off + csize c) r m'
      | None => None
      end
  end.

(* simd_x86.h 466-531: _CommonImplX86::_S_store of _Bytes bytes, with
   AVX512BW and AVX512VL if bwvl; cells of m are bytes here.  The masked store
   of lanes of w bytes (Intel SDM, VMOVDQU8/16/32/64) writes lane i if bit i of
   the mask is set. *)
Definition x86_lane_bytes (bytes : nat) : nat :=
  if Nat.testbit bytes 0 then 1 else if Nat.testbit bytes 1 then 2
  else if Nat.testbit bytes 2 then 4 else 8.
(* simd_x86.h 466-531 *)
Definition x86_reg_bytes (bytes : nat) : nat :=
  if bytes <? 16 then 16 else if bytes <? 32 then 32 else 64.
(* simd_x86.h 466-531 *)
Definition x86_store_mask (bytes : nat) : Z :=
  let w := x86_lane_bytes bytes in
  let lanes := x86_reg_bytes bytes / w in
  Z.shiftr (Z.ones (Z.of_nat lanes)) (Z.of_nat (lanes - bytes / w)).
(* simd_x86.h 466-531 *)
Definition x86_mask_storeu {B} (w lanes : nat) (k : Z) (reg : list B) (m : mem B) : option (mem B) :=
  mwrites m (flat_map (fun i => if Z.testbit k (Z.of_nat i)
                                then combine (seq (i * w) w) (slice w i reg) else [])
                      (seq 0 lanes)).
(* simd_x86.h 466-531 *)
Definition x86_store {B} (bwvl : bool) (bytes : nat) (reg : list B) (m : mem B) : option (mem B) :=
  if negb (Nat.land bytes (bytes - 1) =? 0) && bwvl then
    x86_mask_storeu (x86_lane_bytes bytes) (x86_reg_bytes bytes / x86_lane_bytes bytes)
      (x86_store_mask bytes) reg m
  else mwrite_range m 0 (firstn bytes reg).

(* ------------------------------------------------------------------ *)
(* masked loads and stores                                              *)

(* A mask register is given by the truth value of each of its lanes (the most
   significant bit of a vector lane, or the bit of a bit-mask), padding
   included. *)

(* simd_builtin.h 2620-2650: _S_to_bits: a _SanitizedBitMask of the n elements;
   bit_iteration calls its argument for the set bits *)
Definition mask_bits (n : nat) (k : list bool) : option (list nat) :=
  bit_iteration 64 (bits_to_Z (firstn n k)).

(* simd_builtin.h 1493-1503: _SimdImplBuiltin::_S_masked_load *)
Fixpoint load_at {U T} (conv : U -> T) (is : list nat) (merge : list T) (m : mem U)
  : option (list T) :=
  match is with
  | [] => Some merge
  | i :: r => match m i with
              | Some v => load_at conv r (upd merge i (conv v)) m
              | None => None
              end
  end.
(* simd_builtin.h 1493-1503 *)
Definition load_bits {U T} (conv : U -> T) (n : nat) (merge : list T) (k : list bool) (m : mem U)
  : option (list T) :=
  match mask_bits n k with Some is => load_at conv is merge m | None => None end.

(* AVX512 mask_loadu and AVX maskload combined with the merge register
   (simd_x86.h 866-1010): every lane of the register whose mask bit is set is
   loaded, the others keep merge *)
Fixpoint load_lanes {U T} (conv : U -> T) (i : nat) (merge : list T) (k : list bool) (m : mem U)
  : option (list T) :=
  match merge with
  | [] => Some []
  | x :: r =>
      match (if hd false k then option_map conv (m i) else Some x),
            load_lanes conv (S i) r (tl k) m with
      | Some y, Some ys => Some (y :: ys)
      | _, _ => None
      end
  end.

(* the n bits of _S_to_bits(k), as a mask register;
   helper for simd_builtin.h 1440-1633, simd_x86.h 466-531, 845-1290 *)
Definition sanitize (n : nat) (k : list bool) : list bool := firstn n k.

(* how _S_masked_load of a register is done;
   helper for simd_builtin.h 1440-1633, simd_x86.h 466-531, 845-1290 *)
Inductive mload_kind : Set :=
| MLBits    (* simd_builtin.h 1493-1503; simd_x86.h 1011-1032 *)
| MLAvx512  (* simd_x86.h 866-958: mask_loadu with _S_to_bits(__k) *)
| MLAvx     (* simd_x86.h 959-1010: maskload with the mask register itself *).
(* simd_builtin.h 1493-1503, simd_x86.h 866-1010 *)
Definition vec_masked_load {U T} (kind : mload_kind) (conv : U -> T) (n : nat) (merge : list T)
    (k : list bool) (m : mem U) : option (list T) :=
  match kind with
  | MLBits => load_bits conv n merge k m
  | MLAvx512 => load_lanes conv 0 merge (sanitize n k) m
  | MLAvx => load_lanes conv 0 merge k m
  end.

(* simd_builtin.h 1542-1552 (_S_masked_store_nocvt): bit iteration *)
Definition store_bits {A} (n : nat) (reg : list A) (k : list bool) (m : mem A) : option (mem A) :=
  match mask_bits n k with
  | Some is =>
      match omapm (nth_error reg) is with
      | Some vs => mwrites m (combine is vs)
      | None => None
      end
  | None => None
  end.

(* simd_x86.h 1035-1215 (_S_masked_store_nocvt): mask_storeu, maskstore or
   maskmoveu with the mask register itself: all lanes of the register *)
Definition store_lanes {A} (reg : list A) (k : list bool) (m : mem A) : option (mem A) :=
  mwrites m (flat_map (fun i => match nth_error reg i with
                                | Some v => if nth i k false then [(i, v)] else []
                                | None => []
                                end) (seq 0 (length reg))).
(* simd_x86.h 1035-1215 *)
Definition store_nocvt {A} (x86 : bool) (n : nat) (reg : list A) (k : list bool) (m : mem A)
  : option (mem A) :=
  if x86 then store_lanes reg k m else store_bits n reg k m.

(* simd_builtin.h 1599-1623: the parts of a converting masked store; part i has
   lanes [i * uw, (i + 1) * uw) of the converted value and of the mask
   (__extract_part of the full mask register) *)
Fixpoint masked_store_parts {A} (x86 : bool) (uw : nat) (is : list nat) (reg : list A)
    (k : list bool) (m : mem A) : option (mem A) :=
  match is with
  | [] => Some m
  | i :: r =>
      match at_offset (store_nocvt x86 uw (slice uw i reg) (slice uw i k)) (i * uw) m with
      | Some m' => masked_store_parts x86 uw r reg k m'
      | None => None
      end
  end.

(* how _S_masked_store of a register is done;
   helper for simd_builtin.h 1440-1633, simd_x86.h 466-531, 845-1290 *)
Inductive mstore_kind : Set :=
| MSSame      (* simd_builtin.h 1563-1577: no conversion *)
| MSConvert   (* simd_builtin.h 1578-1624: convert, then store the parts *)
| MSDecompose (* simd_builtin.h 1625-1629: bit iteration *)
| MSTruncate  (* simd_x86.h 1236-1300: AVX512 mask_cvt..._storeu with _S_to_bits *).
(* simd_builtin.h 1554-1632, simd_x86.h 1229-1305.  _S_convert of a mask keeps
   the padding lanes here (it keeps or clears them: 2560-2613). *)
Definition vec_masked_store {T U} (x86 : bool) (I : isa) (u : elem) (kind : mstore_kind)
    (conv : T -> U) (n : nat) (reg : list T) (k : list bool) (m : mem U) : option (mem U) :=
  match kind with
  | MSSame => store_nocvt x86 n (map conv reg) k m
  | MSConvert =>
      let uw := Nat.min n (max_store_size x86 I u / esize u) in
      if uw =? n then store_nocvt x86 n (map conv reg) k m
      else masked_store_parts x86 uw (seq 0 (div_roundup n uw)) (map conv reg) k m
  | MSDecompose => store_bits n (map conv reg) k m
  | MSTruncate => store_lanes (map conv reg) (sanitize n k) m
  end.

(* simd_scalar.h 162-170 and 180-184: the scalar ABI *)
Definition scalar_masked_load {U T} (conv : U -> T) (merge : list T) (k : list bool) (m : mem U)
  : option (list T) :=
  if hd false k then scalar_load conv m else Some merge.
(* simd_scalar.h 162-170, 180-184 *)
Definition scalar_masked_store {T U} (conv : T -> U) (reg : list T) (k : list bool) (m : mem U)
  : option (mem U) :=
  if hd false k then scalar_store conv reg m else Some m.

(* simd_builtin.h 1493-1503, simd_x86.h 866-1010, simd_scalar.h 162-170 *)
Definition reg_masked_load {U T} (kind : mload_kind) (conv : U -> T) (n : nat) (merge : list T)
    (k : list bool) (m : mem U) : option (list T) :=
  if length merge =? 1 then scalar_masked_load conv merge k m
  else vec_masked_load kind conv n merge k m.
(* simd_builtin.h 1542-1633, simd_x86.h 1035-1290, simd_scalar.h 180-184 *)
Definition reg_masked_store {T U} (x86 : bool) (I : isa) (u : elem) (kind : mstore_kind)
    (conv : T -> U) (n : nat) (reg : list T) (k : list bool) (m : mem U) : option (mem U) :=
  if length reg =? 1 then scalar_masked_store conv reg k m
  else vec_masked_store x86 I u kind conv n reg k m.

(* simd_fixed_size.h 1344-1367: _S_masked_load.  The register mask made by
   _S_make_mask has no set padding lanes. *)
Fixpoint fs_masked_load {U T} (ml : nat -> list T -> list bool -> mem U -> option (list T))
    (np : nat) (bits : bitmask) (off : nat) (old : tuple T) (m : mem U) : option (tuple T) :=
  match old with
  | [] => Some []
  | c :: r =>
      match (if bm_any (csize c) (bm_extract_flag np true off (csize c))
                  (submask np off (csize c) bits)
             then ml (csize c) (creg c) (make_mask np off (csize c) bits) (mshift m off)
             else Some (creg c)),
            fs_masked_load ml np bits (off + csize c) r m with
      | Some reg, Some t => Some (Chunk (csize c) reg :: t)
      | _, _ => None
      end
  end.

(* simd_fixed_size.h 1380-1395: _S_masked_store *)
Fixpoint fs_masked_store {T U} (ms : nat -> list T -> list bool -> mem U -> option (mem U))
    (np : nat) (bits : bitmask) (off : nat) (x : tuple T) (m : mem U) : option (mem U) :=
  match x with
  | [] => Some m
  | c :: r =>
      match (if bm_any (csize c) (bm_extract_flag np true off (csize c))
                  (submask np off (csize c) bits)
             then at_offset (ms (csize c) (creg c) (make_mask np off (csize c) bits)) off m
             else Some m) with
      | Some m' => fs_masked_store ms np bits (off + csize c) r m'
      | None => None
      end
  end.

(* simd_builtin.h 1734-1738: _S_equal_to of vector registers compares all
   lanes, padding included *)
Definition vec_equal_to {A} (eqb : A -> A -> bool) (x y : list A) : list bool := map2 eqb x y.
