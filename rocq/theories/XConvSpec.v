(* Vocabulary for the register conversions of x86. *)
From Coq Require Import List ZArith Bool Arith.
From Verif Require Import Prelude FloatSpec FloatRoundSpec ScalarSpec Scalar NarrowSpec Narrow XConv.
Import ListNotations.
Local Open Scope nat_scope.

(* Compilers switch on what an instruction set extension implies: AVX512VL, BW
   and DQ imply AVX512F, and so on. *)
Definition flags_ok (ft : xfeat) : Prop :=
  (avx512vl ft = true \/ avx512bw ft = true \/ avx512dq ft = true -> avx512f ft = true)
  /\ (avx512f ft = true -> avx2 ft = true)
  /\ (avx2 ft = true \/ xfma ft = true -> avx ft = true)
  /\ (avx ft = true -> sse41 ft = true)
  /\ (sse41 ft = true -> ssse3 ft = true).

(* the element types *)
Definition elem_type (t : ety) : Prop :=
  match t with EI w _ => w = 1 \/ w = 2 \/ w = 4 \/ w = 8 | EF w => w = 4 \/ w = 8 end.
(* Registers of N elements that the library uses (simd_builtin.h 926-949): a
   power of two, at least two; up to 16 bytes; 32 with AVX, for integers with
   AVX2; 64 with AVX512F, for 8- and 16-bit integers with AVX512BW. *)
Definition register_type (ft : xfeat) (t : ety) (N : nat) : Prop :=
  (exists n, N = 2 ^ n) /\ 2 <= N /\
  (N * esize t <= 16
   \/ N * esize t = 32 /\ (if is_fp t then avx ft = true else avx2 ft = true)
   \/ N * esize t = 64 /\ avx512f ft = true /\ (4 <= esize t \/ avx512bw ft = true)).

(* the bytes of a pattern p of w bytes, in memory order *)
Definition bytes_of (w : nat) (p : Z) : list (option Z) :=
  map (fun k => Some (p / 256 ^ Z.of_nat k mod 256)%Z) (seq 0 w).
(* k registers with N elements each, holding the patterns xs in order *)
Definition registers (w N k : nat) (xs : list Z) : list (list (option Z)) :=
  map (fun i => flat_map (bytes_of w) (firstn N (skipn (i * N) xs))) (seq 0 k).
(* element j of a register with elements of w bytes has pattern p *)
Definition contains (w : nat) (l : list (option Z)) (j : nat) (p : Z) : Prop :=
  firstn w (skipn (j * w) l) = bytes_of w p.
Definition patterns (w : nat) (xs : list Z) : Prop := Forall (fun p => 0 <= p < 2 ^ (8 * Z.of_nat w))%Z xs.

(* the pattern p stands for the value v of type u; a NaN for any NaN *)
Definition stands_for (u : ety) (p v : Z) : Prop :=
  (0 <= p < 2 ^ (8 * Z.of_nat (esize u)))%Z /\
  match u with
  | EI w sg => conv (int_ty w sg) p = v
  | EF w => p = v \/ decode (fmt_of w) p = DNaN /\ decode (fmt_of w) v = DNaN
  end.

(* static_cast<u>(x) for the element x with pattern p *)
Definition converted (md : rmode) (t u : ety) (p : Z) : option Z :=
  cast binary64 md (aty_of t) (aty_of u) (value t p).

(* Conversions that do not round correctly: 64-bit integers to float in
   registers of at least eight elements, with AVX2 but without AVX512DQ. *)
Definition rounds_twice (ft : xfeat) (t u : ety) (M : nat) : Prop :=
  (exists sg, t = EI 8 sg) /\ u = EF 4 /\ avx2 ft = true /\ avx512dq ft = false /\ 8 <= M.
(* Conversions of sixteen 16-bit integers to 8-bit integers do not compile with
   AVX512BW but without AVX512VL. *)
Definition does_not_compile (ft : xfeat) (t u : ety) (M : nat) : Prop :=
  (exists sg, t = EI 2 sg) /\ (exists sg, u = EI 1 sg) /\ avx512bw ft = true /\ avx512vl ft = false /\ M = 16.
(* Zero as unsigned 32-bit integer, converted to double when rounding downward *)
Definition zero_down (md : rmode) (t u : ety) (p : Z) : Prop :=
  t = EI 4 false /\ u = EF 8 /\ md = Downward /\ p = 0%Z.

(* The conversion of k registers of N elements of type t to a register of k * N
   elements of type u compiles, and its result holds in element j the value of
   static_cast<u> of element j, if that is defined. *)
Definition converts_elements (ft : xfeat) (t u : ety) (N k : nat) (md : rmode) (xs : list Z) : Prop :=
  exists e, convert_registers ft t N u (k * N) k = Some e /\
  forall ub, let result := ceval ub md (registers (esize t) N k xs) e in
  length result = k * N * esize u /\
  forall j v, j < k * N -> converted md t u (nth j xs 0%Z) = Some v ->
  exists p, contains (esize u) result j p /\ stands_for u p v.
