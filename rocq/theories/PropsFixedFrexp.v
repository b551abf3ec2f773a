(* C67: frexp and logb of a simd<float or double, fixed_size<n>>: every element
   of the result is that element's mantissa, exponent or logb.  frexp_result and
   logb_result are in FloatMathSpec.v, the rest in FixedFrexpSpec.v. *)
From Coq Require Import ZArith List Bool Lia.
From Verif Require Import Prelude X86Lanes Abi AbiSpec Fixed FixedSpec FloatSpec FloatRoundSpec FloatMathSpec FloatBits FloatProofs FloatTop
  FloatMath FixedTop FixedFrexp FixedFrexpSpec FixedFrexpProofs Targets PropsAbi PropsFixed PropsFloat PropsMath.
Import ListNotations.
Local Open Scope nat_scope.

(* std_frexp is std::frexp, called for objects and registers with one element;
   I is the target, avx says that it has AVX512F, t are the instructions of the
   other functions, md is the rounding mode.  Missing: doubles on i386 with SSE2
   and without AVX when n is a multiple of 4, for which it is false. *)
Theorem C67_frexp_partial : forall std_frexp avx t f md pad I ty n x e,
  elem_format ty f -> fixed_size_type I ty n -> narrow_exception I ty (TInt 4) && (n mod 4 =? 0) = false ->
  (avx = false -> target_ok t /\ dq_ok t) -> std_frexp_ok f std_frexp ->
  is_fixed I ty n x -> is_fixed I (TInt 4) n e -> all_patterns f x ->
  exists y e', frexp_fixed std_frexp avx t f md pad (storage_shape I (TInt 4)) x e = Some (y, e') /\
    is_fixed I ty n y /\ is_fixed I (TInt 4) n e' /\
    forall i a, i < n -> t_get x i = Some a -> exists b k, t_get y i = Some b /\ t_get e' i = Some k /\
      frexp_result f (decode f a) (decode f b) k.
Proof. exact frexp_fixed_ok. Qed.
Print Assumptions C67_frexp_partial.

(* the excluded targets: no call has a defined result *)
Theorem C67_frexp_refuted : exists I n, fixed_size_type I TDouble n /\
  (exists x e : tuple Z, is_fixed I TDouble n x /\ is_fixed I (TInt 4) n e /\ all_patterns binary64 x) /\
  forall std_frexp avx t md pad x e, is_fixed I TDouble n x -> is_fixed I (TInt 4) n e ->
    frexp_fixed std_frexp avx t binary64 md pad (storage_shape I (TInt 4)) x e = None.
Proof. exact frexp_fixed_i386. Qed.
Print Assumptions C67_frexp_refuted.

(* instr m says that logb of m elements is the instruction vgetexp *)
Theorem C67_logb : forall std_logb instr t f md I ty n x,
  elem_format ty f -> fixed_size_type I ty n ->
  ((forall m, instr m = true) \/ (target_ok t /\ dq_ok t)) -> std_logb_ok f std_logb ->
  is_fixed I ty n x -> all_patterns f x ->
  exists y, logb_fixed std_logb instr t f md x = Some y /\ is_fixed I ty n y /\
    forall i a, i < n -> t_get x i = Some a -> exists b, t_get y i = Some b /\ logb_result f (decode f a) (decode f b).
Proof. exact logb_fixed_ok. Qed.
Print Assumptions C67_logb.

(* a std::frexp and a std::logb that meet the hypothesis: the library's own for
   one element *)
Definition frexp_ex (f : fmt) (a : Z) : Z * Z :=
  match frexp_reg true skx_target f ToNearest [a] with Some [p] => p | _ => (0, 0)%Z end.
Definition logb_ex (f : fmt) (a : Z) : Z :=
  match logb_reg true skx_target f ToNearest [a] with Some [p] => p | _ => 0%Z end.
Example C67_std_ex : std_frexp_ok binary64 (frexp_ex binary64) /\ std_logb_ok binary64 (logb_ex binary64).
Proof.
  split; intros a Ha.
  - destruct (C34_frexp true skx_target binary64 ToNearest [a] (or_intror eq_refl)) as (rs & E & L & H);
      [discriminate|constructor; auto|]. unfold frexp_ex. rewrite E.
    destruct rs as [|r [|r' rs]]; try discriminate. destruct (H 0%nat a eq_refl) as (y & k & Ey & Hy & _). injection Ey as ->. exact Hy.
  - destruct (C35_logb true skx_target binary64 ToNearest [a] (or_intror eq_refl)) as (rs & E & L & H);
      [discriminate|constructor; auto|]. unfold logb_ex. rewrite E.
    destruct rs as [|r [|r' rs]]; try discriminate. destruct (H 0%nat a eq_refl) as (y & Ey & Hy). injection Ey as ->. exact Hy.
Qed.

(* nine doubles in registers of 4, 4 and 1, nine ints in registers of 8 and 1:
   3/2, the smallest subnormal, 0, 1, ... *)
Definition x_ex : tuple Z :=
  [Chunk 4 [0x3ff8000000000000; 1; 0; 0x3ff0000000000000]%Z; Chunk 4 [0xc000000000000000; 1; 0; 0x3fe0000000000000]%Z;
   Chunk 1 [0x4020000000000000%Z]].
Definition e_ex : tuple Z := [Chunk 8 [5; 5; 5; 5; 5; 5; 5; 5]%Z; Chunk 1 [5%Z]].
Example C67_hypotheses :
  fixed_size_type isa_avx2 TDouble 9 /\ is_fixed isa_avx2 TDouble 9 x_ex /\ is_fixed isa_avx2 (TInt 4) 9 e_ex /\
  narrow_exception isa_avx2 TDouble (TInt 4) && (9 mod 4 =? 0) = false /\ all_patterns binary64 x_ex.
Proof.
  split; [split; [apply avx2_arch|split; [exact I|cbn; lia]]|]. split; [reflexivity|]. split; [reflexivity|].
  split; [reflexivity|]. intros i a. do 9 (destruct i as [|i]; [intros H; injection H as <-; split; [apply Z.leb_le; reflexivity|reflexivity]|]).
  intros H. destruct i; discriminate.
Qed.
Example C67_ex :
  frexp_fixed (frexp_ex binary64) false sse4_target binary64 ToNearest 0 (storage_shape isa_avx2 (TInt 4)) x_ex e_ex
  = Some ([Chunk 4 [0x3fe8000000000000; 0x3fe0000000000000; 0; 0x3fe0000000000000]%Z;
           Chunk 4 [0xbfe0000000000000; 0x3fe0000000000000; 0; 0x3fe0000000000000]%Z; Chunk 1 [0x3fe0000000000000%Z]],
          [Chunk 8 [1; -1073; 0; 1; 2; -1073; 0; 0]%Z; Chunk 1 [4%Z]]) /\
  logb_fixed (logb_ex binary64) (fun _ => false) sse4_target binary64 ToNearest x_ex
  = Some [Chunk 4 [0; 0xc090c80000000000; 0xfff0000000000000; 0]%Z;
          Chunk 4 [0x3ff0000000000000; 0xc090c80000000000; 0xfff0000000000000; 0xbff0000000000000]%Z;
          Chunk 1 [0x4008000000000000%Z]].
Proof. split; vm_compute; reflexivity. Qed.
