(* C51: the conversions of whole registers on x86 convert every element. *)
From Coq Require Import ZArith List Bool Arith Lia.
From Verif Require Import Prelude FloatSpec FloatRoundSpec ScalarSpec Scalar NarrowSpec Narrow XConv XConvSpec XConvTop.
Import ListNotations.
Local Open Scope nat_scope.

(* Every conversion compiles, but for one group. *)
Theorem C51_compiles_partial : forall ft t u N k,
  flags_ok ft -> elem_type t -> elem_type u -> register_type ft t N -> register_type ft u (k * N) ->
  In k [1; 2; 4; 8; 16] -> ~ does_not_compile ft t u (k * N) ->
  exists e, convert_registers ft t N u (k * N) k = Some e.
Proof. exact compiles. Qed.
Print Assumptions C51_compiles_partial.

(* Every element is converted as static_cast does it, in every rounding mode,
   whatever the undefined conversions of other elements yield.  Missing: the
   conversions of does_not_compile and rounds_twice, and the sign of zero when
   unsigned int is converted to double rounding downward; see below. *)
Theorem C51_elements_partial : forall ft t u N k md xs,
  flags_ok ft -> elem_type t -> elem_type u -> register_type ft t N -> register_type ft u (k * N) ->
  In k [1; 2; 4; 8; 16] ->
  ~ does_not_compile ft t u (k * N) -> ~ rounds_twice ft t u (k * N) ->
  length xs = k * N -> patterns (esize t) xs -> Forall (fun p => ~ zero_down md t u p) xs ->
  converts_elements ft t u N k md xs.
Proof. exact elements_partial. Qed.
Print Assumptions C51_elements_partial.

Definition sse2_only := mk false false false false false false false false false.
Definition avx2_only := mk true true true true false false false false false.
Definition avx512f_only := mk true true true true true true false false false.
Definition avx512bw_only := mk true true true true true true false true false.

(* a conversion through two registers with -1, the largest and other numbers *)
Example C51_nonvacuous_avx2 :
  converts_elements avx2_only (EI 8 true) (EF 8) 2 2 ToNearest [2 ^ 64 - 1; 2 ^ 63 - 1; 2 ^ 63; 5]%Z
  /\ converted ToNearest (EI 8 true) (EF 8) (2 ^ 64 - 1)%Z = Some (1023 * 2 ^ 52 + 2 ^ 63)%Z.
Proof.
  split; [|reflexivity]. apply C51_elements_partial.
  - unfold flags_ok; cbn; intuition discriminate.
  - cbn; auto 10.
  - cbn; auto 10.
  - split; [exists 1; reflexivity|]. split; [auto|]. left. cbn. auto 20.
  - split; [exists 2; reflexivity|]. split; [cbn; auto|]. right; left. split; reflexivity.
  - cbn; auto 10.
  - intros ([? H] & _). discriminate.
  - intros (_ & H & _). discriminate.
  - reflexivity.
  - repeat constructor; discriminate.
  - repeat constructor; intros (H & _); discriminate.
Qed.
(* double to unsigned int, with a fraction, a negative fraction, 2^32 - 1 and a
   number for which the conversion is undefined *)
Example C51_nonvacuous_sse2 :
  converts_elements sse2_only (EF 8) (EI 4 false) 2 2 Upward
    [4611686018427387904 - 2 ^ 51; 13826050856027422720; 4751297606873776128; 4890909195324358656]%Z
  /\ map (converted Upward (EF 8) (EI 4 false)) [4611686018427387904 - 2 ^ 51; 13826050856027422720; 4751297606873776128; 4890909195324358656]%Z
     = [Some 1; Some 0; Some (2 ^ 32 - 1); None]%Z.
Proof.
  split; [|vm_compute; reflexivity]. apply C51_elements_partial.
  - unfold flags_ok; cbn; intuition discriminate.
  - cbn; auto 10.
  - cbn; auto 10.
  - split; [exists 1; reflexivity|]. split; [auto|]. left. cbn. auto 20.
  - split; [exists 2; reflexivity|]. split; [cbn; auto|]. left. cbn. auto 20.
  - cbn; auto 10.
  - intros ([? H] & _). discriminate.
  - intros (_ & H & _). discriminate.
  - reflexivity.
  - repeat constructor; discriminate.
  - repeat constructor; intros (H & _); discriminate.
Qed.

(* 64-bit integers to float with eight elements: the result is not the nearest
   float.  AVX2 without AVX512F: hi * 2^32 + lo is rounded more than once. *)
Theorem C51_i64_float_avx2_refuted :
  ~ converts_elements avx2_only (EI 8 true) (EF 4) 4 2 ToNearest (repeat (2 ^ 62 + 2 ^ 38 + 1)%Z 8).
Proof.
  apply (wrong_element _ _ _ _ _ _ _ 0 1585446912%Z 1585446913%Z); [vm_compute; reflexivity|cbn; lia|vm_compute; reflexivity|].
  intros [_ [H|[H _]]]; vm_compute in H; discriminate.
Qed.
Print Assumptions C51_i64_float_avx2_refuted.
(* AVX512F without AVX512DQ: the same, and through double *)
Theorem C51_i64_float_avx512f_refuted : forall sg,
  ~ converts_elements avx512f_only (EI 8 sg) (EF 4) 8 1 ToNearest (repeat (2 ^ 62 + 2 ^ 38 + 1)%Z 8).
Proof.
  intros sg. apply (wrong_element _ _ _ _ _ _ _ 0 1585446912%Z 1585446913%Z);
    [destruct sg; vm_compute; reflexivity|cbn; lia|destruct sg; vm_compute; reflexivity|].
  intros [_ [H|[H _]]]; vm_compute in H; discriminate.
Qed.
Print Assumptions C51_i64_float_avx512f_refuted.
(* unsigned int 0 to double, rounding downward: the result is -0 *)
Theorem C51_zero_downward_refuted :
  ~ converts_elements sse2_only (EI 4 false) (EF 8) 2 1 Downward [0; 1]%Z.
Proof.
  apply (wrong_element _ _ _ _ _ _ _ 0 (2 ^ 63)%Z 0%Z); [vm_compute; reflexivity|cbn; lia|vm_compute; reflexivity|].
  intros [_ [H|[H _]]]; vm_compute in H; discriminate.
Qed.
Print Assumptions C51_zero_downward_refuted.
(* sixteen 16-bit integers to 8 bits with AVX512BW but without AVX512VL *)
Theorem C51_compiles_refuted : forall sg su, convert_registers avx512bw_only (EI 2 sg) 16 (EI 1 su) 16 1 = None.
Proof. intros [|] [|]; vm_compute; reflexivity. Qed.
Print Assumptions C51_compiles_refuted.
