(* What taking a part of a register means: the bytes of the elements asked for. *)
From Coq Require Import List Arith.
From Verif Require Import ShiftRight.
Import ListNotations.

(* bytes a .. a + n - 1 of an object *)
Definition bytes_at {A} (a n : nat) (x : list A) : list A := firstn n (skipn a x).
(* r starts with the n bytes of x from a on *)
Definition starts_with {A} (r : list A) (a n : nat) (x : list A) : Prop := n <= length r /\ bytes_at 0 n r = bytes_at a n x.
(* vector registers *)
Definition register_bytes (n : nat) : Prop := n = 16 \/ n = 32 \/ n = 64.
Definition object_bytes (n : nat) : Prop := n = 1 \/ n = 2 \/ n = 4 \/ n = 8 \/ register_bytes n.
(* vectors of 64 bytes of elements below 4 bytes are used with AVX512BW only *)
Definition has_bw (T : target) (sz bytes : nat) : Prop :=
  bytes = 64 -> sz mod 4 <> 0 -> t_avx512f T = true -> t_avx512bw T = true.
