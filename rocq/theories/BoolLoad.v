(* Loading masks from bool*, and loads and stores of masks under another mask:
   _MaskImplX86::_S_load, _S_masked_load, _S_masked_store for the vector ABIs
   (simd_x86.h 4280-4429, 4446-4547, 4685-4712), _MaskImplBuiltin (simd_builtin.h
   2671-2687, 2751-2785), _MaskImplFixedSize (simd_fixed_size.h 1877-1890,
   1936-1944, 1957-1962), _MaskImplScalar (simd_scalar.h 632-634, 662-678).
   The AVX-512 masks are in KMask.v.

   Memory as in Mem.v: cell i is __mem[i], None if there is no such object.
   A bool has the value 0 or 1 (simd_builtin.h 2681).  Vectors as in MaskConv.v
   (bytes; x86, little-endian) and X86Mask.v (lanes). *)
From Coq Require Import List ZArith Bool Arith.
From Verif Require Import Prelude BitMask KMask X86Lanes X86Mask BoolStore MaskConv Abi Fixed Mem.
Import ListNotations.
Local Open Scope nat_scope.

(* __builtin_memcpy of n bytes to a zero register of size bytes;
   helper for simd_x86.h 4280-4429, 4446-4547, 4685-4712, simd_builtin.h 2671-2687 *)
Definition load_bytes (size n : nat) (m : mem bool) : option (list Z) :=
  option_map (fun l => map b2z l ++ repeat 0%Z (size - n)) (mread_range m 0 n).

(* _mm_cmpgt_epi8(a, 0);
   helper for simd_x86.h 4280-4429, 4446-4547, 4685-4712, simd_builtin.h 2671-2687 *)
Definition cmpgt_epi8 (l : list Z) : list Z := map (fun b => bool_byte (0 <? sgn 8 b)%Z) l.
(* _mm_cmpgt_epi16(a, 0), on the bytes;
   helper for simd_x86.h 4280-4429, 4446-4547, 4685-4712, simd_builtin.h 2671-2687 *)
Fixpoint cmpgt_epi16 (l : list Z) : list Z :=
  match l with
  | a :: b :: r => let v := bool_byte (0 <? sgn 16 (a + 2 ^ 8 * b))%Z in v :: v :: cmpgt_epi16 r
  | _ => []
  end.
(* _mm_unpacklo/unpackhi_epi8/16/32(a, a) of 16 bytes, w: bytes of a lane;
   helper for simd_x86.h 4280-4429, 4446-4547, 4685-4712, simd_builtin.h 2671-2687 *)
Definition dup_lanes (w o : nat) (l : list Z) : list Z :=
  flat_map (fun i => let x := firstn w (skipn (o + i * w) l) in x ++ x) (seq 0 (8 / w)).

(* simd_x86.h 4287-4310, AVX512BW, vector ABI: vptestmb of a register of 16, 32
   or 64 bytes, then _S_to_maskvector(_BitMask<n>(bits)._M_sanitized()) *)
Definition load_avx512bw (ft : cfeat) (const : bool) (t n : nat) (m : mem bool) : option (list byte) :=
  let size := if (n <=? 16) && c_avx512vl ft then 16 else if (n <=? 32) && c_avx512vl ft then 32 else 64 in
  option_map (fun a =>
      let bits := of_lanes (map (fun b => negb (Z.land b b =? 0)%Z) a) in
      x86_bits_to_vec ft const n t n (bm_to_ullong (bm_sanitized n false (bm_of_ullong n bits))))
    (load_bytes size n m).

(* simd_builtin.h 2671-2687: the generic version *)
Definition base_mask_load (t n : nat) (m : mem bool) : option (list byte) :=
  let size := vec_size t n in
  if t =? 1 then option_map (fun a => defined (cmpgt_epi8 a)) (load_bytes size n m)
  else option_map (fun l => flat_map (fun b => repeat (Some (bool_byte b)) t) l ++ repeat (Some 0%Z) (size - t * n))
         (mread_range m 0 n).

(* simd_x86.h 4280-4429: _S_load<_Tp> for a vector ABI, n elements of t bytes; with
   SSE2.  const: the loaded bits are compile-time constants (MaskConv.v) *)
Definition x86_mask_load (ft : cfeat) (const : bool) (t n : nat) (m : mem bool) : option (list byte) :=
  let size := vec_size t n in
  if c_avx512bw ft then load_avx512bw ft const t n m
  else if (t =? 8) && (n =? 2) then                                       (* 4367-4370 *)
    option_map (fun l =>
        let neg j := le_bytes 4 (uns 32 (- b2z (nth j l false))) in
        defined (neg 0 ++ neg 0 ++ neg 1 ++ neg 1))
      (mread_range m 0 2)
  else if (t =? 8) && (n <=? 4) && c_avx ft then                          (* 4371-4384 *)
    option_map (fun a =>
        let bool4 := le_value a in
        let lane c := le_bytes 4 (if Z.land bool4 c =? 0 then 0 else 2 ^ 32 - 1)%Z in
        let k := lane 0x1%Z ++ lane 0x100%Z ++ lane 0x10000%Z ++ lane (if n =? 4 then 0x1000000%Z else 0%Z) in
        defined (dup_lanes 4 0 k ++ dup_lanes 4 8 k))
      (load_bytes 4 n m)
  else if (t =? 4) && (n <=? 4) then                                      (* 4385-4395 *)
    option_map (fun a =>
        let k := cmpgt_epi16 (dup_lanes 1 0 (a ++ repeat 0%Z 12)) in
        defined (firstn size (dup_lanes 2 0 k)))
      (load_bytes 4 n m)
  else if (t =? 4) && (n <=? 8) then                                      (* 4404-4412 *)
    option_map (fun a =>
        let k := cmpgt_epi16 (dup_lanes 1 0 a) in
        defined (dup_lanes 2 0 k ++ dup_lanes 2 8 k))
      (load_bytes 16 n m)
  else if (t =? 2) && (n <=? 16) then                                     (* 4413-4424 *)
    option_map (fun a =>
        let k := cmpgt_epi8 a in
        if n <=? 8 then defined (firstn size (dup_lanes 1 0 k))
        else defined (dup_lanes 1 0 k ++ dup_lanes 1 8 k))
      (load_bytes 16 n m)
  else base_mask_load t n m.

(* simd_fixed_size.h 1877-1890: a load of simd<signed char, fixed_size<n>> (I, the
   machine; s, its registers) and a comparison with zero, register by register *)
Definition ne_zero (n : nat) (r : list Z) (rs : list (list Z)) : list bool :=
  map (fun v => negb (v =? 0)%Z) r.
(* simd_fixed_size.h 1877-1890 *)
Definition fixed_mask_load (I : isa) (n : nat) (m : mem bool) : option bitmask :=
  match storage_shape I (TInt 1) n with
  | Some s => option_map (fun x => t_test ne_zero x [])
                (fs_load (reg_load I (TInt 1) true (fun v => v) 0%Z 0%Z) s 0 (fun i => option_map b2z (m i)))
  | None => None
  end.

(* simd_scalar.h 632-634, 662-678 *)
Definition scalar_mask_load (m : mem bool) : option bool := m 0.
(* simd_scalar.h 632-634, 662-678 *)
Definition scalar_mask_masked_load (merge k : bool) (m : mem bool) : option bool :=
  if k then m 0 else Some merge.
(* simd_scalar.h 632-634, 662-678 *)
Definition scalar_mask_masked_store (v k : bool) (m : mem bool) : option (mem bool) :=
  if k then mwrite m 0 v else Some m.

(* simd_builtin.h 2751-2764: _S_masked_load of a vector mask: __tmp._M_set(i, -mem[i])
   for the set bits of _S_to_bits(mask); to_bits: that word *)
Definition neg_bool (s : X86Mask.shape) (b : bool) : Z := uns (lw s) (- b2z b).
(* simd_builtin.h 2751-2764 *)
Definition base_mask_masked_load (s : X86Mask.shape) (bits : Z) (merge : list Z) (m : mem bool) : option (list Z) :=
  match bit_iteration 64 bits with
  | Some is => load_at (neg_bool s) is merge m
  | None => None
  end.
(* simd_x86.h 4488-4543: mask_sub(merge, k, 0, cvtepi8(maskz_loadu(k, mem))), with
   AVX512BW+VL and registers without padding *)
Definition x86_mask_masked_load (bwvl packs : bool) (s : X86Mask.shape) (mask merge : list Z) (m : mem bool) : option (list Z) :=
  let bits := x86_to_bits packs s mask in
  if bwvl && ((sz s * sn s =? 16) || (sz s * sn s =? 32))
  then load_lanes (fun b => uns (lw s) (0 - sgn 8 (b2z b))) 0 merge
         (map (fun i => Z.testbit bits (Z.of_nat i)) (seq 0 (sn s))) m
  else base_mask_masked_load s bits merge m.

(* simd_builtin.h 2776-2785, simd_x86.h 4710-4711: _S_masked_store of a vector mask:
   mem[i] = v[i] for the set bits *)
Definition mask_masked_store (bits : Z) (v : list Z) (m : mem bool) : option (mem bool) :=
  match bit_iteration 64 bits with
  | Some is =>
      match omapm (fun i => option_map (fun p => negb (p =? 0)%Z) (nth_error v i)) is with
      | Some vs => mwrites m (combine is vs)
      | None => None
      end
  | None => None
  end.

(* simd_fixed_size.h 1936-1944 and 1957-1962 *)
Fixpoint set_from (n : nat) (is : list nat) (b : bitmask) (m : mem bool) : option bitmask :=
  match is with
  | [] => Some b
  | i :: r => match m i with Some x => set_from n r (bm_set n b i x) m | None => None end
  end.
(* simd_fixed_size.h 1936-1944, 1957-1962 *)
Definition fixed_mask_masked_load (n : nat) (merge k : bitmask) (m : mem bool) : option bitmask :=
  match bit_iteration 64 (bm_to_ullong k) with Some is => set_from n is merge m | None => None end.
(* simd_fixed_size.h 1936-1944, 1957-1962 *)
Definition fixed_mask_masked_store (n : nat) (v k : bitmask) (m : mem bool) : option (mem bool) :=
  match bit_iteration 64 (bm_to_ullong k) with
  | Some is => mwrites m (map (fun i => (i, bm_get n v i)) is)
  | None => None
  end.
