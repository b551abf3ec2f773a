(* What a vector mask shows, and the loops that simd.h uses when the mask is a
   compile-time constant. *)
From Coq Require Import List ZArith Bool Arith.
From Verif Require Import Prelude MaskSpec X86Mask.
Import ListNotations.

(* the shapes that exist on x86 with SSE2: elements of 1, 2, 4 or 8 bytes, more
   than half of the stored vector used, registers of 16 or 32 bytes *)
Definition shape_ok (s : shape) : Prop :=
  (sz s = 1 \/ sz s = 2 \/ sz s = 4 \/ sz s = 8) /\
  (fp s = true -> sz s = 4 \/ sz s = 8) /\
  2 <= sn s <= st s /\ st s < 2 * sn s /\ st s <= rl s /\
  (rl s * sz s = 16 \/ (rl s * sz s = 32 /\ st s = rl s)).

(* AVX implies SSE4.1; 32-byte registers need AVX *)
Definition feat_ok (f : feat) (s : shape) : Prop :=
  (f_avx f = true -> f_sse41 f = true) /\ (rl s * sz s = 32 -> f_avx f = true).

(* x holds the n booleans l: element i is all ones or zero; the other lanes are
   any numbers of that width *)
Definition holds (s : shape) (x : list Z) (l : list bool) : Prop :=
  length x = st s /\ length l = sn s /\
  (forall i, i < sn s -> nth i x 0%Z = if nth i l false then (2 ^ (8 * Z.of_nat (sz s)) - 1)%Z else 0%Z) /\
  (forall i, i < st s -> (0 <= nth i x 0 < 2 ^ (8 * Z.of_nat (sz s)))%Z).
