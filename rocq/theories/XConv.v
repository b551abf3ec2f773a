(* The x86 conversions of registers: __convert_x86
   (/repo/experimental/bits/simd_x86_conversions.h), all of it, with 1, 2, 4, 8
   and 16 arguments, as called by __vector_convert (simd_builtin.h 497-519).

   A vector is the list of its bytes in memory order (x86 is little-endian); an
   undefined byte is None.  Vectors have 2 to 64 bytes and a power-of-two number
   of elements, at least two.  Simplified: on i386 vectors of 8 bytes are stored
   in 16 (simd.h 1360-1362), not modelled; multiplication and addition are not
   contracted to fused operations (the products in this file are exact, so
   contraction would not change a value); code behind a return statement is
   left out. *)
From Coq Require Import List ZArith Bool Arith.
From Verif Require Import Prelude FloatSpec FloatRoundSpec FloatArith ScalarSpec Scalar NarrowSpec Narrow.
Import ListNotations.
Local Open Scope nat_scope.

(* ------------------------------------------------------------------ *)
(* Element types: integers of 1, 2, 4, 8 bytes, float and double.  long double
   is never in a vector (simd_builtin.h 926-949). *)
Inductive ety := EI (w : nat) (sg : bool) | EF (w : nat).
(* sizeof(_Tp), is_floating_point_v<_Tp>, is_signed_v<_Tp>;
   helper for simd_x86_conversions.h 33-2033 *)
Definition esize (t : ety) : nat := match t with EI w _ => w | EF w => w end.
(* simd_x86_conversions.h 33-2033 *)
Definition is_fp (t : ety) : bool := match t with EF _ => true | _ => false end.
(* simd_x86_conversions.h 33-2033 *)
Definition is_sg (t : ety) : bool := match t with EI _ s => s | EF _ => true end.
(* simd_x86_conversions.h 33-2033 *)
Definition int_ty (w : nat) (sg : bool) : ity := {| iw := 8 * Z.of_nat w; isg := sg |}.
(* simd_x86_conversions.h 33-2033 *)
Definition fmt_of (w : nat) : fmt := if w =? 4 then binary32 else binary64.
(* simd_x86_conversions.h 33-2033 *)
Definition aty_of (t : ety) : aty :=
  match t with
  | EI w s => AInt (int_ty w s)
  | EF w => AFloat (if w =? 4 then FFloat else FDouble)
  end.

(* simd.h 465-495: __have_ssse3 ... __have_avx512dq; xfma: __have_fma ||
   __have_fma4 *)
Record xfeat := { ssse3 : bool; sse41 : bool; avx : bool; avx2 : bool; xfma : bool;
  avx512f : bool; avx512vl : bool; avx512bw : bool; avx512dq : bool }.

(* ------------------------------------------------------------------ *)
(* Operations on one lane, from a pattern to a pattern.
   OCast t u: static_cast<u>(x).
   OOf w sg f: cvtepi32_ps and the like: integer of w bytes to float of f bytes.
   OTo f w sg: cvttpd_epi32 and the like.
   OFF f g: cvtps_pd, cvtpd_ps.   OFloor f: _mm_floor_pd.
   OMul f c, OAdd f c, OSub f c: x * c, x + c, x - c for a constant c.
   OXor c: x ^ c. Helper for simd_x86_conversions.h 33-2033 *)
Inductive lop :=
| OCast (t u : ety)
| OOf (w : nat) (sg : bool) (f : nat)
| OTo (f w : nat) (sg : bool)
| OFF (f g : nat)
| OFloor (f : nat)
| OMul (f : nat) (c : Z)
| OAdd (f : nat) (c : Z)
| OSub (f : nat) (c : Z)
| OXor (c : Z).

(* the value of a pattern of a type, and back (two's complement);
   helper for simd_x86_conversions.h 33-2033 *)
Definition value (t : ety) (p : Z) : Z :=
  match t with EI w true => conv (int_ty w true) p | _ => p end.
(* simd_x86_conversions.h 33-2033 *)
Definition pattern_of (t : ety) (v : Z) : Z :=
  match t with EI w _ => v mod 2 ^ (8 * Z.of_nat w) | EF _ => v end%Z.

(* What an operation does in rounding mode md.  A static_cast that is undefined
   in C++ gives ub p.  The cvtt instructions give the integer indefinite value
   for what is out of range: the top bit only, or all bits if unsigned.
   Helper for simd_x86_conversions.h 33-2033 *)
Definition lop_sem (ub : Z -> Z) (md : rmode) (o : lop) (p : Z) : Z :=
  match o with
  | OCast t u =>
      match cast binary64 md (aty_of t) (aty_of u) (value t p) with
      | Some v => pattern_of u v
      | None => ub p
      end
  | OOf w sg f => fof_int (fmt_of f) md (value (EI w sg) p)
  | OTo f w sg =>
      match fto_int (fmt_of f) (int_ty w sg) p with
      | Some v => pattern_of (EI w sg) v
      | None => if sg then 2 ^ (8 * Z.of_nat w - 1) else 2 ^ (8 * Z.of_nat w) - 1
      end
  | OFF f g => fconv (fmt_of f) (fmt_of g) md p
  | OFloor f => fround_to_int (fmt_of f) Downward p
  | OMul f c => fmul (fmt_of f) md p (fof_int (fmt_of f) ToNearest c)
  | OAdd f c => fadd (fmt_of f) md p (fof_int (fmt_of f) ToNearest c)
  | OSub f c => fsub (fmt_of f) md p (fof_int (fmt_of f) ToNearest c)
  | OXor c => Z.lxor p c
  end%Z.

(* ------------------------------------------------------------------ *)
(* Vector expressions.  Source of a byte in a shuffle: byte n, zero, the sign
   of byte n (0x00 or 0xff), undefined. Helper for simd_x86_conversions.h 33-2033 *)
Inductive bsrc := P (n : nat) | Z0 | Sg (n : nat) | Un.
(* CArg k: argument k.  CCat a b: the bytes of a, then those of b.  CPerm: byte
   shuffle.  COr: bitwise or.  CAdd w: sum of lanes of w bytes (paddw).  CLane o
   wi wo a: operation o on each lane of wi bytes, giving wo bytes.  CFAdd f: sum
   of float lanes of f bytes. Helper for simd_x86_conversions.h 33-2033 *)
Inductive cexp :=
| CArg (k : nat)
| CCat (a b : cexp)
| CPerm (s : list bsrc) (a : cexp)
| COr (a b : cexp)
| CAdd (w : nat) (a b : cexp)
| CLane (o : lop) (wi wo : nat) (a : cexp)
| CFAdd (f : nat) (a b : cexp).

Notation byte := (option Z).
(* the integer in little-endian bytes, undefined if a byte is; and its bytes;
   helper for simd_x86_conversions.h 33-2033 *)
Fixpoint le_val (l : list byte) : option Z :=
  match l with
  | [] => Some 0%Z
  | b :: r => match b, le_val r with Some x, Some y => Some (x + 256 * y)%Z | _, _ => None end
  end.
(* simd_x86_conversions.h 33-2033 *)
Definition le_byte (v : Z) (k : nat) : Z := (v / 256 ^ Z.of_nat k mod 256)%Z.
(* simd_x86_conversions.h 33-2033 *)
Definition le_split (w : nat) (o : option Z) : list byte :=
  map (fun k => match o with Some v => Some (le_byte v k) | None => None end) (seq 0 w).
(* lanes of w bytes: lane i of l; helper for simd_x86_conversions.h 33-2033 *)
Definition lane {A} (w : nat) (l : list A) (i : nat) : list A := firstn w (skipn (i * w) l).
(* simd_x86_conversions.h 33-2033 *)
Definition lanes {A} (w : nat) (l : list A) : list (list A) := map (lane w l) (seq 0 (length l / w)).
(* simd_x86_conversions.h 33-2033 *)
Definition sign_fill (b : byte) : byte :=
  match b with Some x => Some (if (x <? 128)%Z then 0%Z else 255%Z) | None => None end.
(* simd_x86_conversions.h 33-2033 *)
Definition oapp (g : Z -> Z) (o : option Z) : option Z := match o with Some v => Some (g v) | None => None end.
(* simd_x86_conversions.h 33-2033 *)
Definition oapp2 (g : Z -> Z -> Z) (o p : option Z) : option Z :=
  match o, p with Some v, Some w => Some (g v w) | _, _ => None end.

(* simd_x86_conversions.h 33-2033 *)
Fixpoint ceval (ub : Z -> Z) (md : rmode) (args : list (list byte)) (e : cexp) : list byte :=
  match e with
  | CArg k => nth k args []
  | CCat a b => ceval ub md args a ++ ceval ub md args b
  | CPerm s a =>
      let r := ceval ub md args a in
      map (fun i => match i with
                    | P n => nth n r None
                    | Z0 => Some 0%Z
                    | Sg n => sign_fill (nth n r None)
                    | Un => None
                    end) s
  | COr a b => map2 (oapp2 Z.lor) (ceval ub md args a) (ceval ub md args b)
  | CAdd w a b =>
      concat (map2 (fun x y => le_split w (oapp2 Z.add (le_val x) (le_val y)))
                (lanes w (ceval ub md args a)) (lanes w (ceval ub md args b)))
  | CLane o wi wo a =>
      flat_map (fun x => le_split wo (oapp (lop_sem ub md o) (le_val x))) (lanes wi (ceval ub md args a))
  | CFAdd f a b =>
      concat (map2 (fun x y => le_split f (oapp2 (fadd (fmt_of f) md) (le_val x) (le_val y)))
                (lanes f (ceval ub md args a)) (lanes f (ceval ub md args b)))
  end.

(* ------------------------------------------------------------------ *)
(* The intrinsics and helpers that only move bytes;
   helper for simd_x86_conversions.h 33-2033 *)
Definition idx (o n : nat) : list bsrc := map P (seq o n).
(* bytes o .. o+n-1; helper for simd_x86_conversions.h 33-2033 *)
Definition part (o n : nat) := CPerm (idx o n).
(* n bytes extended to m with zeros: simd.h 1951-2038 (__zero_extend),
   1633-1649 (__to_intrin), and what intrinsics do with the upper part *)
Definition zext (n m : nat) (e : cexp) : cexp := if n =? m then e else CPerm (idx 0 n ++ repeat Z0 (m - n)) e.
(* simd_x86_conversions.h 33-2033 *)
Definition to_intrin (n : nat) := zext n (Nat.max n 16).
(* simd.h 1506-1548: __intrin_bitcast from n to m bytes (also __auto_bitcast,
   2161-2183); the upper part of a cast to a wider register is undefined *)
Definition ibc (ft : xfeat) (n m : nat) (e : cexp) : cexp :=
  if n =? m then e
  else if m <? n then part 0 m e
  else if (avx ft && (n =? 16) && (m =? 32)) || (avx512f ft && (16 <=? n) && (m =? 64))
       then CPerm (idx 0 n ++ repeat Un (m - n)) e
  else zext n m e.
(* simd.h 2128-2157 *)
Definition lo128 := part 0 16.
(* simd_x86_conversions.h 33-2033 *)
Definition hi128 := part 16 16.
(* simd_x86_conversions.h 33-2033 *)
Definition lo256 := part 0 32.
(* simd_x86.h 289-322 *)
Definition xzyw (n : nat) := let q := n / 4 in CPerm (idx 0 q ++ idx (2 * q) q ++ idx q q ++ idx (3 * q) q).
(* for each 128-bit lane of n bytes, with its offset;
   helper for simd_x86_conversions.h 33-2033 *)
Definition by128 (n : nat) (f : nat -> list bsrc) : list bsrc := flat_map (fun i => f (16 * i)) (seq 0 (n / 16)).
(* _mm*_unpacklo/unpackhi_epi8/16/32/64, _ps, _pd on n bytes;
   helper for simd_x86_conversions.h 33-2033 *)
Definition unpack (w h n : nat) (a b : cexp) : cexp :=
  CPerm (by128 n (fun o => flat_map (fun i => idx (o + h + i * w) w ++ idx (n + o + h + i * w) w) (seq 0 (8 / w))))
    (CCat a b).
(* simd_x86_conversions.h 33-2033 *)
Definition unpacklo (w n : nat) := unpack w 0 n.
(* simd_x86_conversions.h 33-2033 *)
Definition unpackhi (w n : nat) := unpack w 8 n.
(* two bits of an immediate; helper for simd_x86_conversions.h 33-2033 *)
Definition sel (imm i : nat) : nat := imm / 4 ^ i mod 4.
(* _mm*_shuffle_ps(a, b, imm), _mm*_shuffle_epi32(a, imm);
   helper for simd_x86_conversions.h 33-2033 *)
Definition shuffle_ps (n imm : nat) (a b : cexp) : cexp :=
  CPerm (by128 n (fun o => idx (o + 4 * sel imm 0) 4 ++ idx (o + 4 * sel imm 1) 4
                           ++ idx (n + o + 4 * sel imm 2) 4 ++ idx (n + o + 4 * sel imm 3) 4)) (CCat a b).
(* simd_x86_conversions.h 33-2033 *)
Definition shuffle_epi32 (n imm : nat) : cexp -> cexp :=
  CPerm (by128 n (fun o => flat_map (fun i => idx (o + 4 * sel imm i) 4) (seq 0 4))).
(* _mm256_permute4x64_epi64, _mm256_permutevar8x32_epi32;
   helper for simd_x86_conversions.h 33-2033 *)
Definition permute4x64 (imm : nat) : cexp -> cexp := CPerm (flat_map (fun i => idx (8 * sel imm i) 8) (seq 0 4)).
(* simd_x86_conversions.h 33-2033 *)
Definition permutevar8x32 (l : list nat) : cexp -> cexp := CPerm (flat_map (fun i => idx (4 * i) 4) l).
(* _mm*_shuffle_epi8; None: -0x80; helper for simd_x86_conversions.h 33-2033 *)
Definition pshufb (m : list (option nat)) : cexp -> cexp :=
  CPerm (map (fun p => match snd p with Some k => P (16 * (fst p / 16) + k) | None => Z0 end)
           (combine (seq 0 (length m)) m)).
(* _mm_slli_si128; helper for simd_x86_conversions.h 33-2033 *)
Definition slli_si128 (k : nat) : cexp -> cexp := CPerm (repeat Z0 k ++ idx 0 (16 - k)).
(* blends of lanes of w bytes (epi16, epi32); the immediate has one bit per lane,
   for epi16 it is repeated in each 128-bit lane;
   helper for simd_x86_conversions.h 33-2033 *)
Definition blend (w n imm period : nat) (a b : cexp) : cexp :=
  CPerm (flat_map (fun i => idx ((if Nat.testbit imm (i mod period) then n else 0) + i * w) w) (seq 0 (n / w)))
    (CCat a b).
(* simd_x86_conversions.h 33-2033 *)
Definition blend_epi16 (n imm : nat) := blend 2 n imm 8.
(* simd_x86_conversions.h 33-2033 *)
Definition blend_epi32 (n imm : nat) := blend 4 n imm 8.
(* f for each lane of w bytes at offset o; helper for simd_x86_conversions.h 33-2033 *)
Definition each (w n : nat) (f : nat -> list bsrc) : cexp -> cexp := CPerm (flat_map (fun i => f (i * w)) (seq 0 (n / w))).
(* shifts of lanes of w bytes by k bytes: psra*, psrl*, psll*;
   helper for simd_x86_conversions.h 33-2033 *)
Definition srai (w k n : nat) := each w n (fun o => idx (o + k) (w - k) ++ repeat (Sg (o + w - 1)) k).
(* simd_x86_conversions.h 33-2033 *)
Definition srli (w k n : nat) := each w n (fun o => idx (o + k) (w - k) ++ repeat Z0 k).
(* simd_x86_conversions.h 33-2033 *)
Definition slli (w k n : nat) := each w n (fun o => repeat Z0 k ++ idx o (w - k)).
(* x & c with c having the lower k bytes of each lane of w bytes set (or the
   upper w - k); helper for simd_x86_conversions.h 33-2033 *)
Definition and_lo (w k n : nat) := each w n (fun o => idx o k ++ repeat Z0 (w - k)).
(* simd_x86_conversions.h 33-2033 *)
Definition and_hi (w k n : nat) := each w n (fun o => repeat Z0 k ++ idx (o + k) (w - k)).
(* _mm*_cvtepi64_epi32 etc.: truncation of each lane; vpmov* fills up to 16
   bytes with zeros; helper for simd_x86_conversions.h 33-2033 *)
Definition vpmov (wi wo n : nat) (e : cexp) : cexp :=
  to_intrin (n / wi * wo) (each wi n (fun o => idx o wo) e).
(* _mm*_cvtepi8_epi16, _mm*_cvtepu8_epi16 etc. to n bytes: from the low lanes;
   helper for simd_x86_conversions.h 33-2033 *)
Definition extend (sg : bool) (wi wo n : nat) : cexp -> cexp :=
  CPerm (flat_map (fun i => idx (i * wi) wi ++ repeat (if sg then Sg (i * wi + wi - 1) else Z0) (wo - wi))
           (seq 0 (n / wo))).
(* an operation on the first c lanes, filled up to 16 bytes with zeros;
   helper for simd_x86_conversions.h 33-2033 *)
Definition lane_op (o : lop) (wi wo c : nat) (e : cexp) : cexp := to_intrin (c * wo) (CLane o wi wo (part 0 (c * wi) e)).

(* constants of _mm_setr_epi8: s k gives k, z is -0x80;
   helper for simd_x86_conversions.h 33-2033 *)
Definition s := fun k : nat => Some k.
(* simd_x86_conversions.h 33-2033 *)
Definition z : option nat := None.
(* simd_x86_conversions.h 33-2033 *)
Definition zs (k : nat) : list (option nat) := repeat z k.

(* ------------------------------------------------------------------ *)
(* One call of __convert_x86<_To>: element types t and u of the arguments and of
   _To, their number of elements N and M.  rec: the calls it makes.  None: the
   call does not compile. *)
Section Calls.
Variable ft : xfeat.
Variable rec : ety -> nat -> ety -> nat -> list cexp -> option cexp.
Variables (t : ety) (N : nat) (u : ety) (M : nat).

(* sizeof(__v), sizeof(_To); lines 46-64: [xyz]_to_[xyz] *)
Definition vsz : nat := N * esize t.
(* simd_x86_conversions.h 46-64 *)
Definition tsz : nat := M * esize u.
(* simd_x86_conversions.h 46-64 *)
Definition xx := (vsz <=? 16) && (tsz <=? 16).
(* simd_x86_conversions.h 46-64 *)
Definition xy := (vsz <=? 16) && (tsz =? 32).
(* simd_x86_conversions.h 46-64 *)
Definition xz := (vsz <=? 16) && (tsz =? 64).
(* simd_x86_conversions.h 46-64 *)
Definition yx := (vsz =? 32) && (tsz <=? 16).
(* simd_x86_conversions.h 46-64 *)
Definition yy := (vsz =? 32) && (tsz =? 32).
(* simd_x86_conversions.h 46-64 *)
Definition yz := (vsz =? 32) && (tsz =? 64).
(* simd_x86_conversions.h 46-64 *)
Definition zx := (vsz =? 64) && (tsz <=? 16).
(* simd_x86_conversions.h 46-64 *)
Definition zy := (vsz =? 64) && (tsz =? 32).
(* simd_x86_conversions.h 46-64 *)
Definition zz := (vsz =? 64) && (tsz =? 64).
(* lines 66-173: which types are converted *)
Definition i2i := negb (is_fp t) && negb (is_fp u).
(* simd_x86_conversions.h 66-173 *)
Definition ii (a b : nat) := i2i && (esize t =? a) && (esize u =? b).
(* simd_x86_conversions.h 66-173 *)
Definition i2f (a b : nat) := negb (is_fp t) && is_fp u && (esize t =? a) && (esize u =? b).
(* simd_x86_conversions.h 66-173 *)
Definition f2i (a b : nat) := is_fp t && negb (is_fp u) && (esize t =? a) && (esize u =? b).
(* simd_x86_conversions.h 66-173 *)
Definition ibw2f (b : nat) := negb (is_fp t) && is_fp u && (esize t <=? 2) && (esize u =? b).
(* simd_x86_conversions.h 66-173 *)
Definition f2ibw (a : nat) := is_fp t && negb (is_fp u) && (esize t =? a) && (esize u <=? 2).
(* simd_x86_conversions.h 66-173 *)
Definition f2f (a b : nat) := is_fp t && is_fp u && (esize t =? a) && (esize u =? b).
(* simd_x86_conversions.h 66-173 *)
Definition sgt := is_sg t.
(* simd_x86_conversions.h 66-173 *)
Definition sgu := is_sg u.
(* lines 181-191: what the static_asserts allow between integers *)
Definition isa_ok : bool :=
  (xx || avx2 ft)
  && (avx512bw ft || (((4 <=? esize t) || (vsz <? 64)) && ((4 <=? esize u) || (tsz <? 64))))
  && (((vsz <? 64) && (tsz <? 64)) || avx512f ft).

(* __intrin_bitcast<_To>(e), __auto_bitcast(e) for e of k bytes;
   helper for simd_x86_conversions.h 33-2033 *)
Definition ret (k : nat) (e : cexp) : option cexp := Some (ibc ft k tsz e).
(* simd.h 1951-2038: __zero_extend from k elements of u; more than 16 times as
   many do not compile *)
Definition ret_zext (k : nat) (e : option cexp) : option cexp :=
  if M <=? 16 * k then option_map (zext (k * esize u) tsz) e else None.
(* simd_builtin.h 284-495: static_cast of the first c elements of e *)
Definition by_cast (c : nat) (e : cexp) : option cexp :=
  Some (zext (c * esize u) tsz (CLane (OCast t u) (esize t) (esize u) (part 0 (c * esize t) e))).
(* lines 862-863 *)
Definition fallback (v : cexp) : option cexp := by_cast (Nat.min M N) v.
(* simd_x86_conversions.h 862-863 *)
Definition two32 : Z := 4294967296%Z.
(* simd_x86_conversions.h 862-863 *)
Definition two31 : Z := 2147483648%Z.
(* simd_x86_conversions.h 862-863 *)
Definition two16 : Z := 65536%Z.

(* lines 209-227 *)
Definition conv_i64_i32 (v i : cexp) : option cexp :=
  if xx && avx512vl ft then ret 16 (vpmov 8 4 16 i)
  else if xx then ret 16 (shuffle_ps 16 8 v (CPerm (repeat Z0 16) v))
  else if yx && avx512vl ft then ret 16 (vpmov 8 4 32 i)
  else if yx && avx512f ft then ret 16 (lo128 (vpmov 8 4 64 (ibc ft vsz 64 v)))
  else if yx then ret 16 (lo128 (permute4x64 8 (shuffle_epi32 32 8 i)))
  else if zy then ret 32 (vpmov 8 4 64 i)
  else fallback v.
(* lines 228-262 *)
Definition conv_i64_i16 (v i : cexp) : option cexp :=
  if xx && avx512vl ft then ret 16 (vpmov 8 2 16 i)
  else if xx && avx512f ft then ret 16 (lo128 (vpmov 8 2 64 (ibc ft vsz 64 v)))
  else if xx && ssse3 ft then ret 16 (pshufb (map s [0; 1; 8; 9] ++ zs 12) i)
  else if yx && avx512vl ft then ret 16 (vpmov 8 2 32 i)
  else if yx && avx512f ft then ret 16 (lo128 (vpmov 8 2 64 (ibc ft vsz 64 v)))
  else if yx then
    let a := pshufb (map s [0; 1; 8; 9] ++ zs 12 ++ zs 4 ++ map s [0; 1; 8; 9] ++ zs 8) i in
    ret 16 (COr (lo128 a) (hi128 a))
  else if zx then ret 16 (vpmov 8 2 64 i)
  else fallback v.
(* lines 263-277 *)
Definition conv_i64_i8 (v i : cexp) : option cexp :=
  if xx && avx512vl ft then ret 16 (vpmov 8 1 16 i)
  else if xx && avx512f ft then ret 16 (lo128 (vpmov 8 1 64 (zext 16 64 i)))
  else if yx && avx512vl ft then ret 16 (vpmov 8 1 32 i)
  else if yx && avx512f ft then ret 16 (vpmov 8 1 64 (zext 32 64 i))
  else if zx then ret 16 (vpmov 8 1 64 i)
  else fallback v.
(* lines 278-299 *)
Definition conv_i32_i64 (v i : cexp) : option cexp :=
  if sse41 ft && xx then ret 16 (extend sgt 4 8 16 i)
  else if xx then ret 16 (unpacklo 4 16 i (if sgt then each 4 16 (fun o => repeat (Sg (o + 3)) 4) i else CPerm (repeat Z0 16) i))
  else if xy then ret 32 (extend sgt 4 8 32 i)
  else if yz then ret 64 (extend sgt 4 8 64 i)
  else fallback v.
(* lines 300-339 *)
Definition conv_i32_i16 (v i : cexp) : option cexp :=
  if xx && avx512vl ft then ret 16 (vpmov 4 2 16 i)
  else if xx && avx512f ft then ret 16 (lo128 (vpmov 4 2 64 (ibc ft vsz 64 v)))
  else if xx && ssse3 ft then ret 16 (pshufb (map s [0; 1; 4; 5; 8; 9; 12; 13] ++ zs 8) i)
  else if xx then
    let zero := CPerm (repeat Z0 16) i in
    let a := unpacklo 2 16 i zero in
    let b := unpackhi 2 16 i zero in
    let c := unpacklo 2 16 a b in
    let d := unpackhi 2 16 a b in
    ret 16 (unpacklo 2 16 c d)
  else if yx && avx512vl ft then ret 16 (vpmov 4 2 32 i)
  else if yx && avx512f ft then ret 16 (lo128 (vpmov 4 2 64 (ibc ft vsz 64 v)))
  else if yx then
    let a := pshufb (map s [0; 1; 4; 5; 8; 9; 12; 13] ++ zs 8 ++ map s [0; 1; 4; 5; 8; 9; 12; 13] ++ zs 8) i in
    ret 16 (lo128 (permute4x64 248 a))
  else if zy then ret 32 (vpmov 4 2 64 i)
  else fallback v.
(* lines 340-373 *)
Definition conv_i32_i8 (v i : cexp) : option cexp :=
  if xx && avx512vl ft then ret 16 (vpmov 4 1 16 i)
  else if xx && avx512f ft then ret 16 (lo128 (vpmov 4 1 64 (zext 16 64 i)))
  else if xx && ssse3 ft then ret 16 (pshufb (map s [0; 4; 8; 12] ++ zs 12) i)
  else if xx then
    let a := unpacklo 1 16 i i in
    let b := unpackhi 1 16 i i in
    let c := unpacklo 1 16 a b in
    let d := unpackhi 1 16 a b in
    let e := unpacklo 1 16 c d in
    ret 16 (and_lo 16 4 16 e)
  else if yx && avx512vl ft then ret 16 (vpmov 4 1 32 i)
  else if yx && avx512f ft then ret 16 (vpmov 4 1 64 (zext 32 64 i))
  else if zx then ret 16 (vpmov 4 1 64 i)
  else fallback v.
(* lines 374-399 *)
Definition conv_i16_i64 (v i : cexp) : option cexp :=
  if xx && sse41 ft then ret 16 (extend sgt 2 8 16 i)
  else if xx && sgt then
    let x := each 2 16 (fun o => repeat (Sg (o + 1)) 2) i in
    let y := unpacklo 2 16 i x in
    let x' := unpacklo 2 16 x x in
    ret 16 (unpacklo 4 16 y x')
  else if xx then
    let zero := CPerm (repeat Z0 16) i in
    ret 16 (unpacklo 4 16 (unpacklo 2 16 i zero) zero)
  else if xy then ret 32 (extend sgt 2 8 32 i)
  else if xz then ret 64 (extend sgt 2 8 64 i)
  else fallback v.
(* lines 400-419 *)
Definition conv_i16_i32 (v i : cexp) : option cexp :=
  if xx && sse41 ft then ret 16 (extend sgt 2 4 16 i)
  else if xx && sgt then ret 16 (srai 4 2 16 (unpacklo 2 16 i i))
  else if xx then ret 16 (unpacklo 2 16 i (CPerm (repeat Z0 16) i))
  else if xy then ret 32 (extend sgt 2 4 32 i)
  else if yz then ret 64 (extend sgt 2 4 64 i)
  else fallback v.
(* lines 420-462; lines 445-447: __lo256 of a value of 32 bytes does not compile
   (static_assert in simd.h 2148) *)
Definition conv_i16_i8 (v i : cexp) : option cexp :=
  if xx && avx512bw ft && avx512vl ft then ret 16 (vpmov 2 1 16 i)
  else if xx && avx512bw ft then ret 16 (lo128 (vpmov 2 1 64 (zext 16 64 i)))
  else if xx && ssse3 ft then ret 16 (pshufb (map s [0; 2; 4; 6; 8; 10; 12; 14] ++ zs 8) i)
  else if xx then
    let a := unpacklo 1 16 i i in
    let b := unpackhi 1 16 i i in
    let c := unpacklo 1 16 a b in
    let d := unpackhi 1 16 a b in
    let e := unpacklo 1 16 c d in
    let f := unpackhi 1 16 c d in
    ret 16 (unpacklo 1 16 e f)
  else if yx && avx512bw ft && avx512vl ft then ret 16 (vpmov 2 1 32 i)
  else if yx && avx512bw ft then None
  else if yx then
    let a := pshufb (map s [0; 2; 4; 6; 8; 10; 12; 14] ++ zs 8 ++ zs 8 ++ map s [0; 2; 4; 6; 8; 10; 12; 14]) i in
    ret 16 (COr (lo128 a) (hi128 a))
  else if zy && avx512bw ft then ret 32 (vpmov 2 1 64 i)
  else if zy then None
  else fallback v.
(* lines 463-503; lines 473-478 compute a shuffle and drop it: fallback *)
Definition conv_i8_i64 (v i : cexp) : option cexp :=
  let zero := CPerm (repeat Z0 16) i in
  if xx && sse41 ft then ret 16 (extend sgt 1 8 16 i)
  else if xx && sgt then
    if ssse3 ft then fallback v
    else
      let x := unpacklo 1 16 i i in
      let x' := unpacklo 2 16 x x in
      ret 16 (unpacklo 4 16 (srai 4 3 16 x') (each 4 16 (fun o => repeat (Sg (o + 3)) 4) x'))
  else if xx then ret 16 (unpacklo 4 16 (unpacklo 2 16 (unpacklo 1 16 i zero) zero) zero)
  else if xy then ret 32 (extend sgt 1 8 32 i)
  else if xz then ret 64 (extend sgt 1 8 64 i)
  else fallback v.
(* lines 504-528 *)
Definition conv_i8_i32 (v i : cexp) : option cexp :=
  let zero := CPerm (repeat Z0 16) i in
  if xx && sse41 ft then ret 16 (extend sgt 1 4 16 i)
  else if xx && sgt then
    let x := unpacklo 1 16 i i in
    ret 16 (srai 4 3 16 (unpacklo 2 16 x x))
  else if xx then ret 16 (unpacklo 2 16 (unpacklo 1 16 i zero) zero)
  else if xy then ret 32 (extend sgt 1 4 32 i)
  else if xz then ret 64 (extend sgt 1 4 64 i)
  else fallback v.
(* lines 529-550 *)
Definition conv_i8_i16 (v i : cexp) : option cexp :=
  if xx && sse41 ft then ret 16 (extend sgt 1 2 16 i)
  else if xx && sgt then ret 16 (srai 2 1 16 (unpacklo 1 16 i i))
  else if xx then ret 16 (unpacklo 1 16 i (CPerm (repeat Z0 16) i))
  else if xy then ret 32 (extend sgt 1 2 32 i)
  else if yz && avx512bw ft then ret 64 (extend sgt 1 2 64 i)
  else if yz then None
  else fallback v.
(* lines 551-570: float to 64-bit integers *)
Definition conv_f32_i64 (v i : cexp) : option cexp :=
  let o := OTo 4 8 sgu in
  if avx512dq ft && avx512vl ft && xx then ret 16 (lane_op o 4 8 2 i)
  else if avx512dq ft && avx512vl ft && xy then ret 32 (lane_op o 4 8 4 i)
  else if avx512dq ft && yz then ret 64 (lane_op o 4 8 8 i)
  else fallback v.
(* lines 571-579 *)
Definition conv_f32_s32 (v i : cexp) : option cexp := if xx || yy || zz then fallback v else None.
(* lines 580-600 *)
Definition conv_f32_u32 (v i : cexp) : option cexp :=
  let o := OTo 4 4 false in
  if avx512vl ft && xx then ret 16 (lane_op o 4 4 4 i)
  else if avx512f ft && xx then ret 16 (lo128 (lane_op o 4 4 16 (ibc ft vsz 64 v)))
  else if avx512vl ft && yy then ret 32 (lane_op o 4 4 8 i)
  else if avx512f ft && yy then ret 32 (lo256 (lane_op o 4 4 16 (ibc ft vsz 64 v)))
  else if xx || yy || zz then fallback v
  else None.
(* lines 603-622 *)
Definition conv_f64_i64 (v i : cexp) : option cexp :=
  let o := OTo 8 8 sgu in
  if avx512dq ft && avx512vl ft && xx then ret 16 (lane_op o 8 8 2 i)
  else if avx512dq ft && avx512vl ft && yy then ret 32 (lane_op o 8 8 4 i)
  else if avx512dq ft && zz then ret 64 (lane_op o 8 8 8 i)
  else fallback v.
(* lines 623-631 *)
Definition conv_f64_s32 (v i : cexp) : option cexp :=
  let o := OTo 8 4 true in
  if xx then ret 16 (lane_op o 8 4 2 i)
  else if yx then ret 16 (lane_op o 8 4 4 i)
  else if zy then ret 32 (lane_op o 8 4 8 i)
  else fallback v.
(* _mm*_cvttpd_epi32(_mm*_floor_pd(i) - 0x8000'0000u) of c lanes;
   helper for simd_x86_conversions.h 33-2033 *)
Definition floor_cvt (c : nat) (i : cexp) : cexp :=
  lane_op (OTo 8 4 true) 8 4 c (CLane (OSub 8 two31) 8 8 (CLane (OFloor 8) 8 8 i)).
(* e ^ 0x8000'0000u; helper for simd_x86_conversions.h 33-2033 *)
Definition xor31 (e : cexp) : cexp := CLane (OXor two31) 4 4 e.
(* lines 632-656 *)
Definition conv_f64_u32 (v i : cexp) : option cexp :=
  let o := OTo 8 4 false in
  if avx512vl ft && xx then ret 16 (lane_op o 8 4 2 i)
  else if sse41 ft && xx then Some (xor31 (ibc ft 16 tsz (floor_cvt 2 i)))
  else if xx then fallback v
  else if avx512vl ft && yx then ret 16 (lane_op o 8 4 4 i)
  else if yx then ret 16 (xor31 (floor_cvt 4 i))
  else if zy then ret 32 (lane_op o 8 4 8 i)
  else fallback v.
(* f * c; helper for simd_x86_conversions.h 33-2033 *)
Definition mulc (f : nat) (c : Z) (e : cexp) : cexp := CLane (OMul f c) f f e.
(* lines 662-673 *)
Definition conv_s64_f32 (v i : cexp) : option cexp :=
  let o := OOf 8 true 4 in
  if xx && avx512dq ft && avx512vl ft then ret 16 (lane_op o 8 4 2 i)
  else if yx && avx512dq ft && avx512vl ft then ret 16 (lane_op o 8 4 4 i)
  else if zy && avx512dq ft then ret 32 (lane_op o 8 4 8 i)
  else if zy then
    match rec t N (EF 8) 8 [v] with
    | Some d => ret 32 (lane_op (OFF 8 4) 8 4 8 d)
    | None => None
    end
  else fallback v.
(* lines 674-691 *)
Definition conv_u64_f32 (v i : cexp) : option cexp :=
  let o := OOf 8 false 4 in
  if xx && avx512dq ft && avx512vl ft then ret 16 (lane_op o 8 4 2 i)
  else if yx && avx512dq ft && avx512vl ft then ret 16 (lane_op o 8 4 4 i)
  else if zy && avx512dq ft then ret 32 (lane_op o 8 4 8 i)
  else if zy then
    let cvt e := lo256 (lane_op (OOf 4 false 4) 4 4 16 (ibc ft 32 64 e)) in
    ret 32 (CFAdd 4 (mulc 4 two32 (cvt (vpmov 8 4 64 (srai 8 4 64 i)))) (cvt (vpmov 8 4 64 i)))
  else fallback v.
(* 0x10000 * cvtepi32_ps(__v >> 16) + cvtepi32_ps(__v & 0xffff);
   helper for simd_x86_conversions.h 33-2033 *)
Definition cvt_hi_lo16 (n : nat) (v : cexp) : cexp :=
  let k := Nat.max n 16 in
  CFAdd 4 (mulc 4 two16 (lane_op (OOf 4 true 4) 4 4 (k / 4) (to_intrin n (srli 4 2 n v))))
          (lane_op (OOf 4 true 4) 4 4 (k / 4) (to_intrin n (and_lo 4 2 n v))).
(* lines 696-722 *)
Definition conv_u32_f32 (v i : cexp) : option cexp :=
  let o := OOf 4 false 4 in
  if xx && avx512vl ft then fallback v
  else if xx && avx512f ft then ret 16 (lo128 (lane_op o 4 4 16 (ibc ft vsz 64 v)))
  else if xx && xfma ft then ret 16 (cvt_hi_lo16 vsz v)
  else if yy && avx512vl ft then fallback v
  else if yy && avx512f ft then ret 32 (lo256 (lane_op o 4 4 16 (ibc ft vsz 64 v)))
  else if yy then ret 32 (cvt_hi_lo16 32 v)
  else fallback v.
(* lines 723-773 *)
Definition conv_ibw_f32 (v i : cexp) : option cexp :=
  if (M <=? 4) || avx2 ft then
    match rec t N (EI 4 true) M [v] with
    | Some e => rec (EI 4 true) M u M [e]
    | None => None
    end
  else if negb xy then None
  else if sse41 ft then
    let a := extend sgt (esize t) 4 16 i in
    let w := shuffle_epi32 16 (if esize t =? 2 then 238 else 233) i in
    let b := extend sgt (esize t) 4 16 w in
    rec (EI 4 true) 4 u M [a; b]
  else
    let zero := CPerm (repeat Z0 16) i in
    let tmp := if esize t =? 1 then
                 if sgt then srai 2 1 16 (unpacklo 1 16 i i) else unpacklo 1 16 i zero
               else i in
    let a := if sgt then srai 4 2 16 (unpacklo 2 16 tmp tmp) else unpacklo 2 16 tmp zero in
    let b := if sgt then srai 4 2 16 (unpackhi 2 16 tmp tmp) else unpackhi 2 16 tmp zero in
    rec (EI 4 true) 4 u M [a; b].
(* lines 774-805 *)
Definition conv_i64_f64 (v i : cexp) : option cexp :=
  let o := OOf 8 sgt 8 in
  if xx && avx512dq ft && avx512vl ft then ret 16 (lane_op o 8 8 2 i)
  else if yy && avx512dq ft && avx512vl ft then ret 32 (lane_op o 8 8 4 i)
  else if zz && avx512dq ft then ret 64 (lane_op o 8 8 8 i)
  else if zz then
    let hi := vpmov 8 4 64 (if sgt then srai 8 4 64 v else srli 8 4 64 v) in
    ret 64 (CFAdd 8 (mulc 8 two32 (lane_op (OOf 4 sgt 8) 4 8 8 hi))
                    (lane_op (OOf 4 false 8) 4 8 8 (vpmov 8 4 64 i)))
  else fallback v.
(* lines 806-814 *)
Definition conv_s32_f64 (v i : cexp) : option cexp :=
  let o := OOf 4 true 8 in
  if xx then ret 16 (lane_op o 4 8 2 i)
  else if xy then ret 32 (lane_op o 4 8 4 i)
  else if yz then ret 64 (lane_op o 4 8 8 i)
  else fallback v.
(* lines 815-835 *)
Definition conv_u32_f64 (v i : cexp) : option cexp :=
  let o := OOf 4 false 8 in
  let trick c := CLane (OAdd 8 two31) 8 8 (lane_op (OOf 4 true 8) 4 8 c (to_intrin vsz (CLane (OXor two31) 4 4 v))) in
  if xx && avx512vl ft then ret 16 (lane_op o 4 8 2 i)
  else if xx && avx512f ft then ret 16 (lo128 (lane_op o 4 8 8 (ibc ft vsz 32 v)))
  else if xx then ret 16 (trick 2)
  else if xy && avx512vl ft then ret 32 (lane_op o 4 8 4 i)
  else if xy && avx512f ft then ret 32 (lo256 (lane_op o 4 8 8 (ibc ft vsz 32 v)))
  else if xy then ret 32 (trick 4)
  else if yz then ret 64 (lane_op o 4 8 8 i)
  else fallback v.
(* lines 841-858 *)
Definition conv_f_f (v i : cexp) : option cexp :=
  if f2f 4 8 then
    if xx then ret 16 (lane_op (OFF 4 8) 4 8 2 i)
    else if xy then ret 32 (lane_op (OFF 4 8) 4 8 4 i)
    else if yz then ret 64 (lane_op (OFF 4 8) 4 8 8 i)
    else fallback v
  else
    if xx then ret 16 (lane_op (OFF 8 4) 8 4 2 i)
    else if yx then ret 16 (lane_op (OFF 8 4) 8 4 4 i)
    else if zy then ret 32 (lane_op (OFF 8 4) 8 4 8 i)
    else fallback v.

(* lines 33-864: one argument *)
Definition conv1 (v : cexp) : option cexp :=
  let i := to_intrin vsz v in
  if i2i && yx && negb (avx2 ft) then rec t (N / 2) u M [lo128 v; hi128 v]
  else if i2i && xy && negb (avx2 ft) then None      (* 177-180: no __extract_part of a plain vector *)
  else if i2i && negb isa_ok then None
  else if eqb (is_fp t) (is_fp u) && (esize t =? esize u) then
    if M <=? N then ret vsz v else ret_zext N (Some v)
  else if (N <? M) && (16 <? tsz) then
    let k := Nat.max (16 / esize u) N in ret_zext k (rec t N u k [v])
  else if (M <? N) && (16 <? vsz) then None          (* 206-208: as above *)
  else if ii 8 4 then conv_i64_i32 v i
  else if ii 8 2 then conv_i64_i16 v i
  else if ii 8 1 then conv_i64_i8 v i
  else if ii 4 8 then conv_i32_i64 v i
  else if ii 4 2 then conv_i32_i16 v i
  else if ii 4 1 then conv_i32_i8 v i
  else if ii 2 8 then conv_i16_i64 v i
  else if ii 2 4 then conv_i16_i32 v i
  else if ii 2 1 then conv_i16_i8 v i
  else if ii 1 8 then conv_i8_i64 v i
  else if ii 1 4 then conv_i8_i32 v i
  else if ii 1 2 then conv_i8_i16 v i
  else if f2i 4 8 then conv_f32_i64 v i
  else if f2i 4 4 then if sgu then conv_f32_s32 v i else conv_f32_u32 v i
  else if f2ibw 4 then                               (* 601-602 *)
    match rec t N (EI 4 true) N [v] with Some e => rec (EI 4 true) N u M [e] | None => None end
  else if f2i 8 8 then conv_f64_i64 v i
  else if f2i 8 4 then if sgu then conv_f64_s32 v i else conv_f64_u32 v i
  else if f2ibw 8 then                               (* 657-661 *)
    let k := if N <? 4 then 4 else N in
    match rec t N (EI 4 true) k [v] with Some e => rec (EI 4 true) k u M [e] | None => None end
  else if i2f 8 4 then if sgt then conv_s64_f32 v i else conv_u64_f32 v i
  else if i2f 4 4 then if sgt then fallback v else conv_u32_f32 v i
  else if ibw2f 4 then conv_ibw_f32 v i
  else if i2f 8 8 then conv_i64_f64 v i
  else if i2f 4 8 then if sgt then conv_s32_f64 v i else conv_u32_f64 v i
  else if ibw2f 8 then                               (* 836-840 *)
    let k := Nat.max 4 M in
    match rec t N (EI 4 true) k [v] with Some e => rec (EI 4 true) k u M [e] | None => None end
  else if f2f 4 8 || f2f 8 4 then conv_f_f v i
  else None.

(* lines 1028-1042, 1572-1585, 1884-1897: the arguments are joined if there are
   registers for twice their size *)
Definition joins (args : nat) : bool :=
  (vsz <? 16) || ((vsz =? 16) && avx2 ft) || ((vsz =? 16) && avx ft && is_fp t)
  || ((vsz =? 32) && avx512f ft && (negb (args =? 2) || (4 <=? esize t) || avx512bw ft)).
(* simd.h 1899-1948: __concat *)
Definition join : list cexp -> list cexp :=
  fix go l := match l with a :: b :: r => CCat a b :: go r | _ => [] end.
(* simd_x86_conversions.h 33-2033 *)
Definition both (a b : option cexp) (f : cexp -> cexp -> option cexp) : option cexp :=
  match a, b with Some x, Some y => f x y | _, _ => None end.
(* two results for registers of 16 bytes with k bytes of elements each;
   helper for simd_x86_conversions.h 33-2033 *)
Definition unpack_k (k : nat) (a b : cexp) : option cexp :=
  if (k =? 8) || (k =? 4) || ((k =? 2) && negb (is_fp u)) then ret 16 (unpacklo k 16 a b) else None.
(* lines 1368-1402: the fallback with two arguments *)
Definition fallback2 (v0 v1 : cexp) : option cexp :=
  if 32 <=? tsz then both (rec t N u (M / 2) [v0]) (rec t N u (M / 2) [v1]) (fun a b => Some (CCat a b))
  else if tsz =? 16 then both (rec t N u M [v0]) (rec t N u M [v1]) (unpack_k (esize u * N))
  else by_cast (2 * N) (CCat v0 v1).

(* lines 1059-1081 *)
Definition conv2_i64_i32 (v0 v1 : cexp) : option cexp :=
  if xx then ret 16 (shuffle_ps 16 136 v0 v1)
  else if yy then ret 32 (xzyw 32 (shuffle_ps 32 136 v0 v1))
  else if zz then ret 64 (CCat (vpmov 8 4 64 v0) (vpmov 8 4 64 v1))
  else fallback2 v0 v1.
(* lines 1082-1115 *)
Definition conv2_i64_i16 (v0 v1 : cexp) : option cexp :=
  if xx then
    if sse41 ft then
      ret 16 (pshufb (map s [0; 1; 8; 9; 4; 5; 12; 13] ++ zs 8) (blend_epi16 16 68 v0 (slli_si128 4 v1)))
    else by_cast 4 (CCat v0 v1)
  else if yx then
    let a := unpacklo 2 32 v0 v1 in
    let b := unpackhi 2 32 v0 v1 in
    let c := unpacklo 2 32 a b in
    ret 16 (unpacklo 4 16 (lo128 c) (hi128 c))
  else if zy then ret 32 (CCat (vpmov 8 2 64 v0) (vpmov 8 2 64 v1))
  else fallback2 v0 v1.
(* lines 1116-1154 *)
Definition conv2_i64_i8 (v0 v1 : cexp) : option cexp :=
  if xx && sse41 ft then ret 16 (pshufb (map s [0; 8; 4; 12] ++ zs 12) (blend_epi16 16 68 v0 (slli_si128 4 v1)))
  else if xx && ssse3 ft then
    let f := pshufb (map s [0; 8] ++ zs 14) in ret 16 (unpacklo 2 16 (f v0) (f v1))
  else if xx then by_cast 4 (CCat v0 v1)
  else if yx then
    let a := pshufb (map s [0; 8] ++ zs 2 ++ map s [4; 12] ++ zs 10 ++ zs 2 ++ map s [0; 8] ++ zs 2 ++ map s [4; 12] ++ zs 8)
               (blend_epi32 32 170 v0 (slli 8 4 32 v1)) in
    ret 16 (COr (lo128 a) (hi128 a))
  else fallback2 v0 v1.
(* lines 1155-1202 *)
Definition conv2_i32_i16 (v0 v1 : cexp) : option cexp :=
  if xx then
    if sse41 ft then
      ret 16 (pshufb (map s [0; 1; 4; 5; 8; 9; 12; 13; 2; 3; 6; 7; 10; 11; 14; 15])
                (blend_epi16 16 170 v0 (slli_si128 2 v1)))
    else if ssse3 ft then
      (* _mm_hadd_epi16(v0 << 16, v1 << 16): sums of neighbouring lanes *)
      let c := CCat (slli 4 2 16 v0) (slli 4 2 16 v1) in
      ret 16 (CAdd 2 (each 4 32 (fun o => idx o 2) c) (each 4 32 (fun o => idx (o + 2) 2) c))
    else
      let a := unpacklo 2 16 v0 v1 in
      let b := unpackhi 2 16 v0 v1 in
      let c := unpacklo 2 16 a b in
      let d := unpackhi 2 16 a b in
      ret 16 (unpacklo 2 16 c d)
  else if yy then
    let f := pshufb (map s [0; 1; 4; 5; 8; 9; 12; 13] ++ zs 8 ++ map s [0; 1; 4; 5; 8; 9; 12; 13] ++ zs 8) in
    ret 32 (xzyw 32 (unpacklo 8 32 (f v0) (f v1)))
  else fallback2 v0 v1.
(* lines 1203-1234 *)
Definition conv2_i32_i8 (v0 v1 : cexp) : option cexp :=
  if xx && ssse3 ft then
    let f := pshufb (map s [0; 4; 8; 12] ++ zs 12) in ret 16 (unpacklo 4 16 (f v0) (f v1))
  else if xx then
    let a := unpacklo 1 16 v0 v1 in
    let b := unpackhi 1 16 v0 v1 in
    let c := unpacklo 1 16 a b in
    let d := unpackhi 1 16 a b in
    let e := unpacklo 1 16 c d in
    ret 16 (and_lo 16 8 16 e)
  else if yx then
    let a := pshufb (map s [0; 4; 8; 12] ++ zs 4 ++ map s [2; 6; 10; 14] ++ zs 4
                     ++ zs 4 ++ map s [0; 4; 8; 12] ++ zs 4 ++ map s [2; 6; 10; 14])
               (blend_epi16 32 170 v0 (slli 4 2 32 v1)) in
    ret 16 (COr (lo128 a) (hi128 a))
  else fallback2 v0 v1.
(* lines 1235-1266 *)
Definition conv2_i16_i8 (v0 v1 : cexp) : option cexp :=
  if xx && ssse3 ft then
    let f := pshufb (map s [0; 2; 4; 6; 8; 10; 12; 14] ++ zs 8) in ret 16 (unpacklo 8 16 (f v0) (f v1))
  else if xx then
    let a := unpacklo 1 16 v0 v1 in
    let b := unpackhi 1 16 v0 v1 in
    let c := unpacklo 1 16 a b in
    let d := unpackhi 1 16 a b in
    let e := unpacklo 1 16 c d in
    let f := unpackhi 1 16 c d in
    ret 16 (unpacklo 1 16 e f)
  else if yy then
    ret 32 (xzyw 32
      (pshufb (map s [0; 2; 4; 6; 8; 10; 12; 14; 1; 3; 5; 7; 9; 11; 13; 15; 0; 2; 4; 6; 8; 10; 12; 14; 1; 3; 5; 7; 9; 11; 13; 15])
         (COr (and_lo 2 1 32 v0) (slli 2 1 32 v1))))
  else fallback2 v0 v1.
(* lines 1267-1324 *)
Definition conv2_i64_f32 (v0 v1 : cexp) : option cexp :=
  let cvt sg n := lane_op (OOf 4 sg 4) 4 4 (n / 4) in
  if xx then by_cast 4 (CCat v0 v1)
  else if yy then
    if negb (avx2 ft) then None
    else
      let a := unpacklo 4 32 v0 v1 in
      let b := unpackhi 4 32 v0 v1 in
      let lo32 := unpacklo 4 32 a b in
      let hi32 := unpackhi 4 32 a b in
      match rec (EI 4 sgt) 8 (EF 4) 8 [hi32] with
      | Some h =>
          let mid := mulc 4 two16 (cvt true 32 (srli 4 2 32 lo32)) in
          let lo := cvt true 32 (and_lo 4 2 32 lo32) in
          Some (xzyw 32 (CFAdd 4 (CFAdd 4 (mulc 4 two32 h) mid) lo))
      | None => None
      end
  else if zz && avx512dq ft then
    let f := lane_op (OOf 8 sgt 4) 8 4 8 in Some (CCat (f v0) (f v1))
  else if zz && sgt then
    let f v := vpmov 8 4 64 (srai 8 4 64 v) in
    let hi32 := cvt true 64 (CCat (f v0) (f v1)) in
    let lo32 := CCat (vpmov 8 4 64 v0) (vpmov 8 4 64 v1) in
    let hi16 := cvt false 64 (and_hi 4 2 64 lo32) in
    let lo16 := cvt true 64 (and_lo 4 2 64 lo32) in
    Some (CFAdd 4 (CFAdd 4 (mulc 4 two32 hi32) hi16) lo16)
  else if zz then
    let f v := vpmov 8 4 64 (srai 8 4 64 v) in
    let hi32 := cvt false 64 (CCat (f v0) (f v1)) in
    let lo32 := cvt false 64 (CCat (vpmov 8 4 64 v0) (vpmov 8 4 64 v1)) in
    ret 64 (CFAdd 4 (mulc 4 two32 hi32) lo32)
  else fallback2 v0 v1.
(* lines 1329-1349 *)
Definition conv2_f64_u32 (v0 v1 : cexp) : option cexp :=
  if xx && sse41 ft then Some (xor31 (ibc ft 16 tsz (unpacklo 8 16 (floor_cvt 2 v0) (floor_cvt 2 v1))))
  else if yy then Some (xor31 (CCat (floor_cvt 4 v0) (floor_cvt 4 v1)))
  else fallback2 v0 v1.

(* lines 866-1405: two arguments *)
Definition conv2 (v0 v1 : cexp) : option cexp :=
  if M <? 2 * N then None
  else if i2i && yx && negb (avx2 ft) then rec t (N / 2) u M [lo128 v0; hi128 v0; lo128 v1; hi128 v1]
  else if i2i && negb isa_ok then None
  else if joins 2 then rec t (2 * N) u M [CCat v0 v1]
  else if eqb (is_fp t) (is_fp u) && (esize t =? esize u) then None
  else if (2 * N <? M) && (16 <? tsz) then
    let k := Nat.max (16 / esize u) (2 * N) in ret_zext k (rec t N u k [v0; v1])
  else if ii 8 4 then conv2_i64_i32 v0 v1
  else if ii 8 2 then conv2_i64_i16 v0 v1
  else if ii 8 1 then conv2_i64_i8 v0 v1
  else if ii 4 2 then conv2_i32_i16 v0 v1
  else if ii 4 1 then conv2_i32_i8 v0 v1
  else if ii 2 1 then conv2_i16_i8 v0 v1
  else if i2f 8 4 then conv2_i64_f32 v0 v1
  else if f2i 8 4 && negb sgu then conv2_f64_u32 v0 v1
  else if f2ibw 8 then                               (* 1350-1360 *)
    match rec t N (EI 4 true) (2 * N) [v0; v1] with Some e => rec (EI 4 true) (2 * N) u M [e] | None => None end
  else if f2ibw 4 then                               (* 1361-1366 *)
    both (rec t N (EI 4 true) N [v0]) (rec t N (EI 4 true) N [v1]) (fun a b => rec (EI 4 true) N u M [a; b])
  else fallback2 v0 v1.

(* lines 1784-1816: the fallback with four arguments *)
Definition fallback4 (v0 v1 v2 v3 : cexp) : option cexp :=
  if 32 <=? tsz then both (rec t N u (M / 2) [v0; v1]) (rec t N u (M / 2) [v2; v3]) (fun a b => Some (CCat a b))
  else if tsz =? 16 then
    if esize u * N * 2 =? 2 then None
    else both (rec t N u M [v0; v1]) (rec t N u M [v2; v3]) (unpack_k (esize u * N * 2))
  else by_cast (4 * N) (CCat (CCat v0 v1) (CCat v2 v3)).
(* lines 1602-1650 *)
Definition conv4_i64_i16 (v0 v1 v2 v3 : cexp) : option cexp :=
  if xx && sse41 ft then
    ret 16 (pshufb (map s [0; 1; 8; 9; 2; 3; 10; 11; 4; 5; 12; 13; 6; 7; 14; 15])
      (blend_epi16 16 204 (blend_epi16 16 34 v0 (slli_si128 2 v1))
                          (blend_epi16 16 136 (slli_si128 4 v2) (slli_si128 6 v3))))
  else if yy && avx2 ft then
    ret 32 (pshufb (map s [0; 1; 4; 5; 8; 9; 12; 13; 2; 3; 6; 7; 10; 11; 14; 15; 0; 1; 4; 5; 8; 9; 12; 13; 2; 3; 6; 7; 10; 11; 14; 15])
      (xzyw 32 (blend_epi16 32 170 (shuffle_ps 32 136 v0 v2) (slli 4 2 32 (shuffle_ps 32 136 v1 v3)))))
  else fallback4 v0 v1 v2 v3.
(* lines 1651-1677 *)
Definition conv4_i64_i8 (v0 v1 v2 v3 : cexp) : option cexp :=
  if xx then fallback4 v0 v1 v2 v3
  else if yx then
    let a := COr (COr (COr (srli 4 3 32 (slli 4 3 32 v0)) (srli 4 2 32 (slli 4 3 32 v1)))
                      (srli 4 1 32 (slli 4 3 32 v2))) (slli 4 3 32 v3) in
    let b := unpackhi 8 32 a a in
    let c := unpacklo 1 32 a b in
    ret 16 (unpacklo 2 16 (lo128 c) (hi128 c))
  else fallback4 v0 v1 v2 v3.
(* lines 1678-1735 *)
Definition conv4_i32_i8 (v0 v1 v2 v3 : cexp) : option cexp :=
  if xx then
    if ssse3 ft then
      let x k v := slli 4 k 16 (and_lo 4 1 16 v) in
      ret 16 (pshufb (map s [0; 4; 8; 12; 1; 5; 9; 13; 2; 6; 10; 14; 3; 7; 11; 15])
        (COr (COr (COr (x 0 v0) (x 1 v1)) (x 2 v2)) (slli 4 3 16 v3)))
    else
      let a := unpacklo 1 16 v0 v2 in
      let b := unpackhi 1 16 v0 v2 in
      let c := unpacklo 1 16 v1 v3 in
      let d := unpackhi 1 16 v1 v3 in
      let e := unpacklo 1 16 a c in
      let f := unpackhi 1 16 a c in
      let g := unpacklo 1 16 b d in
      let h := unpackhi 1 16 b d in
      ret 16 (unpacklo 1 16 (unpacklo 1 16 e g) (unpacklo 1 16 f h))
  else if yy then
    let w x y := blend_epi16 32 170 x (slli 4 2 32 y) in
    let a := pshufb (map s [0; 4; 8; 12; 2; 6; 10; 14; 1; 5; 9; 13; 3; 7; 11; 15; 0; 4; 8; 12; 2; 6; 10; 14; 1; 5; 9; 13; 3; 7; 11; 15])
               (COr (and_lo 2 1 32 (w v0 v1)) (slli 2 1 32 (w v2 v3))) in
    ret 32 (permutevar8x32 [0; 4; 1; 5; 2; 6; 3; 7] a)
  else fallback4 v0 v1 v2 v3.

(* lines 1407-1819: four arguments *)
Definition conv4 (v0 v1 v2 v3 : cexp) : option cexp :=
  if M <? 4 * N then None
  else if i2i && yx && negb (avx2 ft) then
    rec t (N / 2) u M [lo128 v0; hi128 v0; lo128 v1; hi128 v1; lo128 v2; hi128 v2; lo128 v3; hi128 v3]
  else if i2i && negb isa_ok then None
  else if joins 4 then rec t (2 * N) u M (join [v0; v1; v2; v3])
  else if eqb (is_fp t) (is_fp u) && (esize t =? esize u) then None
  else if (4 * N <? M) && (16 <? tsz) then
    let k := Nat.max (16 / esize u) (4 * N) in ret_zext k (rec t N u k [v0; v1; v2; v3])
  else if ii 8 2 then conv4_i64_i16 v0 v1 v2 v3
  else if ii 8 1 then conv4_i64_i8 v0 v1 v2 v3
  else if ii 4 1 then conv4_i32_i8 v0 v1 v2 v3
  else if i2f 8 4 && xy then by_cast 8 (CCat (CCat v0 v1) (CCat v2 v3))     (* 1736-1768 *)
  else if f2ibw 8 then                               (* 1769-1774 *)
    both (rec t N (EI 4 true) (2 * N) [v0; v1]) (rec t N (EI 4 true) (2 * N) [v2; v3])
      (fun a b => rec (EI 4 true) (2 * N) u M [a; b])
  else if f2ibw 4 then                               (* 1775-1782 *)
    both (rec t N (EI 4 true) N [v0]) (rec t N (EI 4 true) N [v1]) (fun a b =>
    both (rec t N (EI 4 true) N [v2]) (rec t N (EI 4 true) N [v3]) (fun c d =>
      rec (EI 4 true) N u M [a; b; c; d]))
  else fallback4 v0 v1 v2 v3.

(* lines 1906-1960: the first three branches of i64_to_i8 with eight arguments *)
Definition conv8_i64_i8 (v : nat -> cexp) : option cexp :=
  let cols n := fold_left COr (map (fun k => slli 8 k n (and_lo 8 1 n (v k))) (seq 1 6)) (and_lo 8 1 n (v 0)) in
  if xx && ssse3 ft then
    ret 16 (pshufb (map s [0; 8; 1; 9; 2; 10; 3; 11; 4; 12; 5; 13; 6; 14; 7; 15]) (COr (cols 16) (slli 8 7 16 (v 7))))
  else if xx then
    let lo := unpacklo 1 16 in
    let pair a b := lo (lo (v a) (v b)) (unpackhi 1 16 (v a) (v b)) in
    ret 16 (unpacklo 8 16 (unpacklo 4 16 (pair 0 1) (pair 2 3)) (unpacklo 4 16 (pair 4 5) (pair 6 7)))
  else if yy then
    let p := [0; 8; 1; 9; 2; 10; 3; 11; 4; 12; 5; 13; 6; 14; 7; 15] in
    let q := [0; 1; 8; 9; 2; 3; 10; 11; 4; 5; 12; 13; 6; 7; 14; 15] in
    ret 32 (pshufb (map s (q ++ q)) (xzyw 32 (pshufb (map s (p ++ p)) (COr (cols 32) (slli 8 7 32 (v 7))))))
  else if zz then
    both (rec t N u (M / 2) (map v (seq 0 4))) (rec t N u (M / 2) (map v (seq 4 4))) (fun a b => Some (CCat a b))
  else
    (* lines 1986-2009 *)
    if 32 <=? tsz then
      both (rec t N u (M / 2) (map v (seq 0 4))) (rec t N u (M / 2) (map v (seq 4 4))) (fun a b => Some (CCat a b))
    else if (tsz =? 16) && (N =? 2) then
      both (rec t N u M (map v (seq 0 4))) (rec t N u M (map v (seq 4 4))) (unpack_k 8)
    else None.

(* lines 1821-2012: eight arguments *)
Definition conv8 (v : nat -> cexp) : option cexp :=
  if M <? 8 * N then None
  else if i2i && negb isa_ok then None
  else if joins 8 then rec t (2 * N) u M (join (map v (seq 0 8)))
  else if eqb (is_fp t) (is_fp u) && (esize t =? esize u) then None
  else if (8 * N <? M) && (16 <? tsz) then None
  else if ii 8 1 then conv8_i64_i8 v
  else if is_fp t && negb (is_fp u) && (esize t =? 8) && (esize u =? 1) then       (* 1977-1984 *)
    let c a := rec t N (EI 4 true) (2 * N) [v a; v (S a)] in
    both (c 0) (c 2) (fun x y => both (c 4) (c 6) (fun z w => rec (EI 4 true) (2 * N) u M [x; y; z; w]))
  else None.
End Calls.

(* All overloads; lines 2014-2026: sixteen arguments.  Fuel: the calls nest to a
   depth of at most 9. *)
Fixpoint convert_x86 (fuel : nat) (ft : xfeat) (t : ety) (N : nat) (u : ety) (M : nat) (vs : list cexp) : option cexp :=
  match fuel with
  | 0 => None
  | S f =>
      let rec := convert_x86 f ft in
      match vs with
      | [v] => conv1 ft rec t N u M v
      | [v0; v1] => conv2 ft rec t N u M v0 v1
      | [v0; v1; v2; v3] => conv4 ft rec t N u M v0 v1 v2 v3
      | [_; _; _; _; _; _; _; _] => conv8 ft rec t N u M (fun i => nth i vs (CArg 0))
      | [_; _; _; _; _; _; _; _; _; _; _; _; _; _; _; _] => rec t (2 * N) u M (join vs)
      | _ => None
      end
  end.
(* the call from __vector_convert (simd_builtin.h 508) with k registers *)
Definition convert_registers (ft : xfeat) (t : ety) (N : nat) (u : ety) (M k : nat) : option cexp :=
  convert_x86 12 ft t N u M (map CArg (seq 0 k)).
