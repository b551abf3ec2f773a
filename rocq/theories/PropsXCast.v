(* C53: static_simd_cast on 64-bit x86, with its own register conversions. *)
From Coq Require Import ZArith List Bool Arith Lia.
From Verif Require Import Prelude FloatSpec FloatRoundSpec Abi AbiSpec Fixed Convert ConvertSpec
  XConv XConvSpec XCast XCastSpec XCastProofs PropsAbi PropsFixed PropsConvert PropsXConv.
Import ListNotations.
Local Open Scope nat_scope.

(* For every 64-bit x86 target, all element types of at most eight bytes, any two
   ABIs of equal size and every rounding mode: the cast compiles and element i of
   the result is static_cast<u> of element i.  cpi, cpo, cp choose the paths for
   constants, ub and junk what undefined casts and undefined lanes yield.
   Missing: the conversions that C51 refutes, see below; 32-bit x86. *)
Theorem C53_x86_cast_partial : forall ft I t u md ub junk cpi cpo cp a b x,
  flags_ok ft -> elem_type t -> elem_type u -> x86_target ft I ->
  ~ cast_rounds_twice ft t u (abi_size (elem_of t) a) -> ~ cast_ill_formed ft t u (abi_size (elem_of t) a) ->
  simd_type I (elem_of t) a -> simd_type I (elem_of u) b -> abi_size (elem_of t) a = abi_size (elem_of u) b ->
  is_simd I (elem_of t) a x ->
  exists y, x86_simd_cast ft cpi cpo t u ub junk md cp I a b x = Some y /\ is_simd I (elem_of u) b y /\
  forall i, i < abi_size (elem_of u) b -> exists p q, t_get x i = Some p /\ t_get y i = Some q /\ casts_element md t u p q.
Proof. exact x86_cast_elements. Qed.
Print Assumptions C53_x86_cast_partial.

Definition isa_sse2 : isa := {|
  have_sse := true; have_sse2 := true; have_avx := false; have_avx2 := false;
  have_avx512f := false; have_avx512vl := false; have_avx512bw := false;
  have_power8vec := false; have_power_vsx := false; have_power_vmx := false;
  have_neon := false; have_neon_a32 := false; have_neon_a64 := false;
  support_neon_float := false;
  def_x86_64 := true; def_i386 := false; def_aarch64 := false |}.
Lemma sse2_arch : arch_ok isa_sse2.
Proof. unfold arch_ok, isa_ok, isa_sse2; simpl. repeat split; auto; intuition discriminate. Qed.

(* SSE2: eleven 16-bit integers (8 + 3) to fixed_size<11> double (five registers
   of two and a scalar) by the widening sequences *)
Definition eleven : tuple Z := [Chunk 8 [1; 65535; 3; 4; 5; 6; 7; 32768]%Z; Chunk 3 [9; 10; 11; 99]%Z].
Example C53_nonvacuous_sse2 :
  flags_ok sse2_only /\ elem_type (EI 2 true) /\ elem_type (EF 8) /\ x86_target sse2_only isa_sse2 /\
  ~ cast_rounds_twice sse2_only (EI 2 true) (EF 8) 11 /\ ~ cast_ill_formed sse2_only (EI 2 true) (EF 8) 11 /\
  simd_type isa_sse2 (TInt 2) (AFixed 11) /\ simd_type isa_sse2 TDouble (AFixed 11) /\
  is_simd isa_sse2 (TInt 2) (AFixed 11) eleven /\
  exists y, x86_simd_cast sse2_only false false (EI 2 true) (EF 8) (fun p => p) 7%Z ToNearest false isa_sse2
    (AFixed 11) (AFixed 11) eleven = Some y /\
    t_get y 1 = Some (2 ^ 63 + 1023 * 2 ^ 52)%Z /\ t_get y 7 = Some (2 ^ 63 + 1038 * 2 ^ 52)%Z.
Proof.
  split; [unfold flags_ok; cbn; intuition discriminate|]. split; [cbn; auto|]. split; [cbn; auto|].
  split; [split; [reflexivity|]; cbn; auto 10|].
  split; [intros ([? ?] & _); discriminate|]. split; [intros (_ & [? ?] & _); discriminate|].
  split; [split; [exact sse2_arch|split; [cbn; auto|reflexivity]]|].
  split; [split; [exact sse2_arch|split; [exact Logic.I|reflexivity]]|].
  split; [vm_compute; reflexivity|].
  eexists. split; [vm_compute; reflexivity|]. split; vm_compute; reflexivity.
Qed.

(* AVX2: eight 64-bit integers to float are not rounded to nearest. *)
Definition eight_longs : tuple Z := [Chunk 4 (repeat (2 ^ 62 + 2 ^ 38 + 1)%Z 4); Chunk 4 (repeat (2 ^ 62 + 2 ^ 38 + 1)%Z 4)].
Lemma avx2_target : x86_target avx2_only isa_avx2.
Proof. split; [reflexivity|]. cbn. auto 10. Qed.
Lemma refuted_by ft I t u md ub junk cpi cpo cp a b x y p q v : 0 < abi_size (elem_of u) b ->
  x86_simd_cast ft cpi cpo t u ub junk md cp I a b x = Some y -> t_get x 0 = Some p -> t_get y 0 = Some q ->
  (0 <= p < 2 ^ (8 * Z.of_nat (XConv.esize t)))%Z -> converted md t u p = Some v -> ~ zero_down md t u p -> ~ stands_for u q v ->
  ~ exists y', x86_simd_cast ft cpi cpo t u ub junk md cp I a b x = Some y' /\ is_simd I (elem_of u) b y' /\
    forall i, i < abi_size (elem_of u) b -> exists p q, t_get x i = Some p /\ t_get y' i = Some q /\ casts_element md t u p q.
Proof.
  intros H0 E Ep Eq Hp Hv Hz Hs (y' & E' & _ & H). rewrite E in E'. injection E' as <-.
  destruct (H 0 H0) as (p' & q' & E1 & E2 & E3). rewrite Ep in E1. rewrite Eq in E2. injection E1 as <-. injection E2 as <-.
  apply Hs. apply E3; auto.
Qed.
Theorem C53_i64_float_refuted : exists ft I t u a b x,
  flags_ok ft /\ elem_type t /\ elem_type u /\ x86_target ft I /\
  simd_type I (elem_of t) a /\ simd_type I (elem_of u) b /\ abi_size (elem_of t) a = abi_size (elem_of u) b /\
  is_simd I (elem_of t) a x /\
  forall ub junk, ~ exists y, x86_simd_cast ft false false t u ub junk ToNearest false I a b x = Some y /\ is_simd I (elem_of u) b y /\
  forall i, i < abi_size (elem_of u) b -> exists p q, t_get x i = Some p /\ t_get y i = Some q /\ casts_element ToNearest t u p q.
Proof.
  exists avx2_only, isa_avx2, (EI 8 true), (EF 4), (AFixed 8), (AVecBuiltin 32), eight_longs.
  split; [unfold flags_ok; cbn; intuition discriminate|]. split; [cbn; auto|]. split; [cbn; auto|].
  split; [exact avx2_target|]. split; [apply avx2_simd; [cbn; auto|reflexivity]|].
  split; [apply avx2_simd; [exact Logic.I|reflexivity]|]. split; [reflexivity|]. split; [vm_compute; reflexivity|].
  intros ub junk. apply (refuted_by _ _ _ _ _ _ _ _ _ _ _ _ _ [Chunk 8 (repeat 1585446912%Z 8)] (2 ^ 62 + 2 ^ 38 + 1)%Z 1585446912%Z 1585446913%Z).
  - cbn; lia.
  - vm_compute; reflexivity.
  - vm_compute; reflexivity.
  - vm_compute; reflexivity.
  - split; [discriminate|reflexivity].
  - vm_compute; reflexivity.
  - intros (H & _); discriminate.
  - intros [_ [H|[H _]]]; vm_compute in H; discriminate.
Qed.
Print Assumptions C53_i64_float_refuted.
