(* C65: shifts with a count per element, in registers that have more lanes than
   the simd has elements.  The first n lanes hold the elements; their counts are
   in range (first_counts).  The other lanes of both operands hold anything a
   lane can hold: nothing is assumed about them.  The first n lanes of the result
   are the shifts of the elements (first_lanes).  oob, the value of a GCC vector
   shift whose count is not less than the lane width, is arbitrary: a lane that
   pads may well be shifted by such a count. *)
From Coq Require Import ZArith List Bool Lia.
From Verif Require Import Prelude X86Lanes X86Shift X86ShiftSpec X86ShiftProofs X86ShiftVProofs PadShiftSpec PadShiftProofs PropsX86Shift.
Import ListNotations.
Open Scope Z_scope.

Theorem C65_shl : forall oob x y m n,
  (register 8 (2 * m) x -> register 8 (2 * m) y -> (n <= 2 * m)%nat -> first_counts n 32 y ->
     first_lanes (cpp_shl 8) n x y (shlv8_sse oob x y)) /\
  (register 8 m x -> register 8 m y -> (n <= m)%nat -> first_counts n 32 y ->
     first_lanes (cpp_shl 8) n x y (shlv8_avx512 x y)) /\
  (register 16 (2 * m) x -> register 16 (2 * m) y -> (n <= 2 * m)%nat -> first_counts n 32 y ->
     first_lanes (cpp_shl 16) n x y (shlv16_avx2 oob x y)) /\
  (register 16 m x -> register 16 m y -> (n <= m)%nat -> first_counts n 32 y ->
     first_lanes (cpp_shl 16) n x y (shlv16_avx512 x y)) /\
  (register 32 m x -> register 32 m y -> (n <= m)%nat -> first_counts n 32 y ->
     first_lanes (cpp_shl 32) n x y (shlv32_sse oob x y)).
Proof.
  intros oob x y m n. sp; intros Hx Hy Hn Hc.
  - apply (chunk_ok 2 8 32 _ _ m) with (2 := ch_shlv8_sse oob); auto.
  - apply (chunk_ok 1 8 32 _ _ m) with (2 := ch_shlv8_avx512); rewrite ?Nat.mul_1_l; auto.
  - apply (chunk_ok 2 16 32 _ _ m) with (2 := ch_shlv16_avx2 oob); auto.
  - apply (chunk_ok 1 16 32 _ _ m) with (2 := ch_shlv16_avx512); rewrite ?Nat.mul_1_l; auto.
  - apply (chunk_ok 1 32 32 _ _ m) with (2 := ch_shlv32_sse oob); rewrite ?Nat.mul_1_l; auto.
Qed.
Print Assumptions C65_shl.
(* 16-bit lanes, SSE: as in C28, the counts of elements in even lanes must be
   less than 16 if the next lane is an element *)
Theorem C65_shl16_sse : forall oob x y m n,
  register 16 (2 * m) x -> register 16 (2 * m) y -> (n <= 2 * m)%nat -> first_counts n 32 y ->
  (forall i, (i < n)%nat -> Nat.even i = true -> nth i y 0 < 16) ->
  first_lanes (cpp_shl 16) n x y (shlv16_sse oob x y).
Proof.
  intros oob x y m n [Lx Hx] [Ly Hy] Hn Hc He. rewrite Nat.mul_comm in Lx, Ly, Hn.
  apply (chunk_pad 2 16 upto16e (cpp_shl 16) (shlv16_sse oob)) with (m := m); auto.
  - apply ch_shlv16_sse.
  - intros i Hi. split; [apply Hc; auto|]. apply He; auto.
Qed.
Print Assumptions C65_shl16_sse.
Theorem C65_shr_unsigned : forall oob x y m n,
  (register 8 (2 * m) x -> register 8 (2 * m) y -> (n <= 2 * m)%nat -> first_counts n 32 y ->
     first_lanes cpp_shr_unsigned n x y (shrv8u_sse oob x y) /\
     first_lanes cpp_shr_unsigned n x y (shrv8u_64 x y)) /\
  (register 8 m x -> register 8 m y -> (n <= m)%nat -> first_counts n 32 y ->
     first_lanes cpp_shr_unsigned n x y (shrv8u_avx512 x y)) /\
  (register 8 (4 * m) x -> register 8 (4 * m) y -> (n <= 4 * m)%nat -> first_counts n 32 y ->
     first_lanes cpp_shr_unsigned n x y (shrv8u_avx2 oob x y)) /\
  (register 16 m x -> register 16 m y -> (n <= m)%nat -> first_counts n 32 y ->
     first_lanes cpp_shr_unsigned n x y (shrv16_sse2 vshr oob x y) /\
     first_lanes cpp_shr_unsigned n x y (shrv16_sse41 vshr oob x y) /\
     first_lanes cpp_shr_unsigned n x y (shrv16u_avx512 x y)) /\
  (register 16 (2 * m) x -> register 16 (2 * m) y -> (n <= 2 * m)%nat -> first_counts n 32 y ->
     first_lanes cpp_shr_unsigned n x y (shrv16u_avx2 oob x y)) /\
  (register 32 4 x -> register 32 4 y -> (n <= 4)%nat -> first_counts n 32 y ->
     first_lanes cpp_shr_unsigned n x y (shrv32u_sse41 oob x y) /\
     first_lanes cpp_shr_unsigned n x y (shrv32u_sse2 oob x y)).
Proof.
  intros oob x y m n. split; [|split; [|split; [|split; [|split]]]]; intros Hx Hy Hn Hc; sp.
  - apply (chunk_ok 2 8 32 _ _ m) with (2 := ch_shrv8u_sse oob); auto.
  - apply (chunk_ok 2 8 32 _ _ m) with (2 := ch_shrv8u_64); auto.
  - apply (chunk_ok 1 8 32 _ _ m) with (2 := ch_shrv8u_avx512); rewrite ?Nat.mul_1_l; auto.
  - refine (chunk_ok 4 8 32 _ _ m x y n _ (ch_shrv8_avx2 _ _ oob top_byte_vshr) Hx Hy Hn Hc). lia.
  - apply (chunk_ok 1 16 32 _ _ m) with (2 := ch_shrv16u_sse2 oob); rewrite ?Nat.mul_1_l; auto.
  - apply (chunk_ok 1 16 32 _ _ m) with (2 := ch_shrv16u_sse41 oob); rewrite ?Nat.mul_1_l; auto.
  - apply (chunk_ok 1 16 32 _ _ m) with (2 := ch_shrv16u_avx512); rewrite ?Nat.mul_1_l; auto.
  - apply (chunk_ok 2 16 32 _ _ m) with (2 := ch_shrv16u_avx2 oob); auto.
  - destruct Hx, Hy. apply four_shrv32u_sse41; auto.
  - destruct Hx, Hy. apply four_shrv32u_sse2; auto.
Qed.
Print Assumptions C65_shr_unsigned.
(* signed elements; on SSE the counts of 8- and 16-bit elements must be less than
   8 and 16, see C29 *)
Theorem C65_shr_signed : forall oob x y m n,
  (register 8 (2 * m) x -> register 8 (2 * m) y -> (n <= 2 * m)%nat -> first_counts n 8 y ->
     first_lanes (cpp_shr_signed 8) n x y (shrv8s_sse41 oob x y) /\
     first_lanes (cpp_shr_signed 8) n x y (shrv8s_sse2 oob x y)) /\
  (register 8 (2 * m) x -> register 8 (2 * m) y -> (n <= 2 * m)%nat -> first_counts n 32 y ->
     first_lanes (cpp_shr_signed 8) n x y (shrv8s_64 x y)) /\
  (register 8 m x -> register 8 m y -> (n <= m)%nat -> first_counts n 32 y ->
     first_lanes (cpp_shr_signed 8) n x y (shrv8s_avx512 x y)) /\
  (register 8 (4 * m) x -> register 8 (4 * m) y -> (n <= 4 * m)%nat -> first_counts n 32 y ->
     first_lanes (cpp_shr_signed 8) n x y (shrv8s_avx2 oob x y)) /\
  (register 16 m x -> register 16 m y -> (n <= m)%nat -> first_counts n 16 y ->
     first_lanes (cpp_shr_signed 16) n x y (shrv16_sse2 vsar oob x y) /\
     first_lanes (cpp_shr_signed 16) n x y (shrv16_sse41 vsar oob x y)) /\
  (register 16 m x -> register 16 m y -> (n <= m)%nat -> first_counts n 32 y ->
     first_lanes (cpp_shr_signed 16) n x y (shrv16s_avx512 x y)) /\
  (register 16 (2 * m) x -> register 16 (2 * m) y -> (n <= 2 * m)%nat -> first_counts n 32 y ->
     first_lanes (cpp_shr_signed 16) n x y (shrv16s_avx2 oob x y)) /\
  (register 32 4 x -> register 32 4 y -> (n <= 4)%nat -> first_counts n 32 y -> forall sse41,
     first_lanes (cpp_shr_signed 32) n x y (shrv32s_sse sse41 x y)).
Proof.
  intros oob x y m n. split; [|split; [|split; [|split; [|split; [|split; [|split]]]]]]; intros Hx Hy Hn Hc; sp.
  - apply (chunk_ok 2 8 8 _ _ m) with (2 := ch_shrv8s_sse41 oob); auto.
  - apply (chunk_ok 2 8 8 _ _ m) with (2 := ch_shrv8s_sse2 oob); auto.
  - apply (chunk_ok 2 8 32 _ _ m) with (2 := ch_shrv8s_64); auto.
  - apply (chunk_ok 1 8 32 _ _ m) with (2 := ch_shrv8s_avx512); rewrite ?Nat.mul_1_l; auto.
  - refine (chunk_ok 4 8 32 _ _ m x y n _ (ch_shrv8_avx2 _ _ oob top_byte_vsar) Hx Hy Hn Hc). lia.
  - apply (chunk_ok 1 16 16 _ _ m) with (2 := ch_shrv16s_sse2 oob); rewrite ?Nat.mul_1_l; auto.
  - apply (chunk_ok 1 16 16 _ _ m) with (2 := ch_shrv16s_sse41 oob); rewrite ?Nat.mul_1_l; auto.
  - apply (chunk_ok 1 16 32 _ _ m) with (2 := ch_shrv16s_avx512); rewrite ?Nat.mul_1_l; auto.
  - apply (chunk_ok 2 16 32 _ _ m) with (2 := ch_shrv16s_avx2 oob); auto.
  - intros sse41. destruct Hx, Hy. apply four_shrv32s_sse; auto.
Qed.
Print Assumptions C65_shr_signed.
(* three elements in four lanes; the last count is out of every range *)
Ltac fc := intros [|[|[|?]]] ?; cbn [nth]; lia.
Example C65_nonvacuous :
  register 8 (4 * 1) [200; 255; 129; 77] /\ register 8 (4 * 1) [1; 7; 3; 250] /\ first_counts 3 8 [1; 7; 3; 250] /\
  firstn 3 (shlv8_sse (fun _ _ _ => - 5) [200; 255; 129; 77] [1; 7; 3; 250]) = [144; 128; 8] /\
  firstn 3 (shrv8u_avx2 (fun _ _ _ => - 5) [200; 255; 129; 77] [1; 7; 3; 250]) = [100; 1; 16] /\
  firstn 3 (shrv8s_avx2 (fun _ _ _ => - 5) [200; 255; 129; 77] [1; 7; 3; 250]) = [228; 255; 240] /\
  firstn 3 (shrv8s_sse2 (fun _ _ _ => - 5) [200; 255; 129; 77] [1; 7; 3; 250]) = [228; 255; 240] /\
  register 16 (2 * 2) [3; 65535; 9; 77] /\ register 16 (2 * 2) [15; 31; 4; 60000] /\ first_counts 3 32 [15; 31; 4; 60000] /\
  firstn 3 (shlv16_sse (fun _ _ _ => - 5) [3; 65535; 9; 77] [15; 31; 4; 60000]) = [32768; 0; 144] /\
  register 32 4 [2 ^ 31; 12; 5; 9] /\ register 32 4 [31; 2; 1; 2 ^ 32 - 1] /\ first_counts 3 32 [31; 2; 1; 2 ^ 32 - 1] /\
  firstn 3 (shrv32u_sse2 (fun _ _ _ => - 5) [2 ^ 31; 12; 5; 9] [31; 2; 1; 2 ^ 32 - 1]) = [1; 3; 2] /\
  firstn 3 (shrv32s_sse true [2 ^ 31; 12; 5; 9] [31; 2; 1; 2 ^ 32 - 1]) = [2 ^ 32 - 1; 3; 2].
Proof. sp; try reflexivity; try regs; fc. Qed.
(* the order of the lanes matters: with an element behind a lane that pads, the
   result can be wrong.  Here lane 0 pads and lane 1 is an element. *)
Example C65_only_behind :
  nth 1 (shrv8u_avx2 (fun _ _ _ => 2 ^ 32) [0; 128; 0; 0] [32; 3; 0; 0]) 0 <> cpp_shr_unsigned 128 3.
Proof. cbv. discriminate. Qed.
