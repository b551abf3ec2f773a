(* C61: parts of registers, byte by byte. *)
From Coq Require Import List Arith Bool Lia.
From Verif Require Import Prelude Abi Convert ShiftRight ShiftRightSpec ShiftRightProofs ShiftRightTop.
Import ListNotations.

(* shifting a register right by whole elements: the bytes from shift on come first *)
Theorem C61_shift : forall (A : Type) (zero : A) T t sz shift v,
  register_bytes (length v) -> shift <= length v -> has_bw T sz (length v) -> shift mod sz = 0 -> 1 <= sz ->
  exists r, shift_right zero T t shift v = Some r /\ length r = length v /\ starts_with r shift (length v - shift) v.
Proof. exact @shift_core. Qed.
Print Assumptions C61_shift.

(* __extract_part: the object starts with the elements index * w .. (index + combine) * w - 1,
   where w = np / total *)
Theorem C61_extract : forall (A : Type) (zero : A) T t rbytes constant sz np x,
  1 <= sz -> object_bytes (length x) -> has_bw T sz (length x) -> (forall k, k * sz <= rbytes k) ->
  forall fuel index total combine w, 1 <= combine <= fuel -> 1 <= total -> 1 <= w -> np = total * w -> (index + combine) * w * sz <= length x ->
  exists r, extract_bytes zero T t rbytes constant sz np x fuel index total combine = Some r /\ starts_with r (index * w * sz) (combine * w * sz) x.
Proof. exact @extract_core. Qed.
Print Assumptions C61_extract.

(* the model on lanes that the theorems about split and casts use has the same elements *)
Theorem C61_lanes : forall (A : Type) (zero : A) T v I t x86 cp zl np (reg : list (list A)) rbytes constant index total combine w,
  1 <= esize t -> Forall (fun l => length l = esize t) reg -> object_bytes (length reg * esize t) -> has_bw T (esize t) (length reg * esize t) -> (forall k, k * esize t <= rbytes k) ->
  1 <= combine -> 1 <= total -> 1 <= w -> np = total * w -> (index + combine) * w <= length reg ->
  exists rl rb, extract_part I t zl x86 cp np reg combine index total combine = Some rl /\
    extract_bytes zero T v rbytes constant (esize t) np (concat reg) combine index total combine = Some rb /\
    firstn (combine * w * esize t) rb = concat (firstn (combine * w) rl) /\ combine * w <= length rl /\ combine * w * esize t <= length rb.
Proof. exact @refine_core. Qed.
Print Assumptions C61_lanes.

(* the bytes after them are not zero in general: four floats by two, and 64 bytes by 2
   with AVX512BW; other targets and sizes shift in zeros *)
Definition ex_target : target := {| t_x86 := true; t_sse := true; t_sse2 := true; t_avx := true; t_avx2 := true; t_avx512f := true; t_avx512bw := true |}.
Definition old_target : target := {| t_x86 := true; t_sse := true; t_sse2 := true; t_avx := false; t_avx2 := false; t_avx512f := false; t_avx512bw := false |}.
Theorem C61_zero_fill_refuted : forall v1 v2 : list nat, length v1 = 16 -> length v2 = 64 ->
  exists r1 r2, shift_right 0 old_target VFloat 8 v1 = Some r1 /\ skipn 8 r1 = skipn 8 v1 /\
    shift_right 0 ex_target VOther 2 v2 = Some r2 /\ bytes_at 62 2 r2 = bytes_at 48 2 v2.
Proof.
  intros v1 v2 L1 L2.
  do 16 (destruct v1 as [|? v1]; [discriminate L1|]). destruct v1; [|discriminate L1].
  do 64 (destruct v2 as [|? v2]; [discriminate L2|]). destruct v2; [|discriminate L2].
  eexists _, _. split; [reflexivity|]. split; [reflexivity|]. split; reflexivity.
Qed.
Print Assumptions C61_zero_fill_refuted.

(* the hypotheses can be met: parts of 64 bytes, of shorts *)
Example ex_shift : register_bytes 64 /\ has_bw ex_target 2 64 /\ 22 mod 2 = 0 /\
  exists r, shift_right 100 ex_target VOther 22 (seq 0 64) = Some r /\ firstn 42 r = seq 22 42.
Proof. split; [unfold register_bytes; lia|]. split; [unfold has_bw; auto|]. split; [reflexivity|]. eexists. split; reflexivity. Qed.
Example ex_extract : object_bytes 32 /\ (1 + 2) * 4 * 2 <= 32 /\
  extract_bytes 100 ex_target VOther (fun k => k * 2) false 2 16 (seq 0 32) 2 1 4 2 = Some (seq 8 16) /\
  extract_bytes 100 old_target VOther (fun k => k * 2) false 2 16 (seq 0 32) 2 1 4 2 = Some (seq 8 16).
Proof. split; [unfold object_bytes, register_bytes; lia|]. split; [lia|]. split; reflexivity. Qed.
