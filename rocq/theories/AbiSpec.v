(* What the ABI properties are about, stated without the library's selection
   code: which registers a target offers, and when a tag is usable. *)
From Coq Require Import List Arith Bool.
From Verif Require Import Abi.
Import ListNotations.

(* Element types as C++ ABIs provide them. *)
Definition elem_ok (t : elem) : Prop :=
  match t with
  | TInt b => b = 1 \/ b = 2 \/ b = 4 \/ b = 8
  | TFloat | TDouble => True
  | TLongDouble b => b = 8 \/ b = 12 \/ b = 16
  end.

(* The target has a b-byte register with arithmetic for elements of type t
   (ISA manuals; elements wider than 8 bytes never fit). *)
Inductive offers (I : isa) (t : elem) : nat -> Prop :=
| off_zmm_bw : esize t <= 8 -> have_avx512bw I = true -> offers I t 64
| off_zmm : esize t <= 8 -> have_avx512f I = true -> 4 <= esize t -> offers I t 64
| off_ymm : esize t <= 8 -> have_avx2 I = true -> offers I t 32
| off_ymm_fp : esize t <= 8 -> have_avx I = true -> efloating t = true -> offers I t 32
| off_xmm : esize t <= 8 -> have_sse2 I = true -> offers I t 16
| off_xmm_ps : have_sse I = true -> t = TFloat -> offers I t 16
| off_vmx : esize t < 8 -> have_power_vmx I = true -> offers I t 16
| off_vsx : esize t <= 8 -> have_power_vsx I = true -> efloating t = true -> offers I t 16
| off_p8 : esize t <= 8 -> have_power8vec I = true -> offers I t 16
| off_a64 : esize t <= 8 -> have_neon_a64 I = true -> offers I t 16
| off_a32 : esize t <= 8 -> have_neon_a32 I = true -> t <> TDouble -> offers I t 16
| off_neon : esize t < 8 -> have_neon I = true ->
    (efloating t = true -> support_neon_float I = true) -> offers I t 16.

Definition widest (I : isa) (t : elem) (w : nat) : Prop :=
  offers I t w /\ forall w', offers I t w' -> w' <= w.

(* Feature sets a compiler can produce: each x86 extension implies the older
   ones, AMD64 has SSE2 (simd_detail.h 213-215), AArch64 has NEON (not
   -march=...+nosimd), the NEON flags nest (simd_detail.h 52-66). *)
Definition isa_ok (I : isa) : Prop :=
  (have_avx512bw I = true -> have_avx512f I = true) /\
  (have_avx512vl I = true -> have_avx512f I = true) /\
  (have_avx512f I = true -> have_avx2 I = true) /\
  (have_avx2 I = true -> have_avx I = true) /\
  (have_avx I = true -> have_sse2 I = true) /\
  (have_sse2 I = true -> have_sse I = true) /\
  (def_x86_64 I = true -> have_sse2 I = true) /\
  (def_aarch64 I = true -> have_neon_a64 I = true) /\
  (have_neon_a64 I = true -> have_neon_a32 I = true) /\
  (have_neon_a32 I = true -> have_neon I = true).

(* One architecture at a time, with its extensions nested. *)
Definition arch_ok (I : isa) : Prop :=
  isa_ok I /\
  (have_power8vec I = true -> have_power_vsx I = true) /\
  (have_power_vsx I = true -> have_power_vmx I = true) /\
  (have_sse I = true -> def_x86_64 I = true \/ def_i386 I = true) /\
  ~ (def_x86_64 I = true /\ def_i386 I = true) /\
  ~ ((def_x86_64 I = true \/ def_i386 I = true) /\
     (have_power_vmx I = true \/ have_neon I = true \/ def_aarch64 I = true)) /\
  ~ (have_power_vmx I = true /\ (have_neon I = true \/ def_aarch64 I = true)).

(* A tag that can really hold k elements of t in one object on this target:
   vector masks stop at 32 bytes on AVX-512 targets; bit masks need AVX-512F,
   BW for 1- and 2-byte elements, VL for registers of at most 32 bytes. *)
Definition fits_register (I : isa) (t : elem) (b k : nat) : Prop :=
  2 <= k /\ b = k * esize t /\ exists w, offers I t w /\ b <= w.

Definition usable (I : isa) (t : elem) (a : abi) (k : nat) : Prop :=
  match a with
  | AScalar => k = 1
  | AFixed n => k = n /\ 1 <= n /\
      (n <= 32 \/ (n <= 64 /\ esize t = 1 /\ have_avx512bw I = true))
  | AVecBuiltin b =>
      fits_register I t b k /\ (have_avx512f I = true -> b <= 32)
  | AVecBltnBtmsk b =>
      fits_register I t b k /\ have_avx512f I = true /\
      (esize t < 4 -> have_avx512bw I = true) /\
      (b <= 32 -> have_avx512vl I = true)
  end.

(* One machine register (or one scalar), not another tuple. *)
Definition is_register (a : abi) : Prop :=
  match a with AFixed _ => False | _ => True end.
