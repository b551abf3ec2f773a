(* C68: modf and copysign of a simd<float or double, fixed_size<n>>: every
   element is split, gets its sign.  modf_result is in FloatMathSpec.v, the
   rest in FixedModfSpec.v. *)
From Coq Require Import ZArith List Bool Lia.
From Verif Require Import Prelude X86Lanes Abi AbiSpec Fixed FixedSpec FloatSpec FloatRoundSpec FloatMathSpec FloatBits FloatArith FloatProofs
  FloatRound FloatMath FloatMathProofs FloatRoundTop FloatSign FixedTop FixedFrexpSpec FixedModf FixedModfSpec FixedModfProofs Targets PropsAbi PropsFixed PropsFloat PropsMath PropsFixedFrexp.
Import ListNotations.
Local Open Scope nat_scope.

(* I is the target, t and rt are its instructions for isinf and trunc, md is the
   rounding mode *)
Theorem C68_modf : forall std_modf std_trunc std_isinf t rt f md I ty n x,
  elem_format ty f -> fixed_size_type I ty n ->
  std_modf_ok f std_modf -> std_trunc_ok f std_trunc -> std_isinf_ok f std_isinf ->
  is_fixed I ty n x -> all_patterns f x ->
  exists fr it, modf_fixed std_modf std_trunc std_isinf t rt f md x = Some (fr, it) /\
    is_fixed I ty n fr /\ is_fixed I ty n it /\
    forall i a, i < n -> t_get x i = Some a -> exists b c, t_get fr i = Some b /\ t_get it i = Some c /\
      modf_result false f (decode f a) (decode f b) (decode f c).
Proof. exact modf_fixed_ok. Qed.
Print Assumptions C68_modf.

Theorem C68_copysign : forall std_copysign f I ty n x y,
  elem_format ty f -> fixed_size_type I ty n -> std_copysign_ok f std_copysign ->
  is_fixed I ty n x -> is_fixed I ty n y -> all_patterns f x -> all_patterns f y ->
  exists r, copysign_call std_copysign f x y = Some r /\ is_fixed I ty n r /\
    forall i a b, i < n -> t_get x i = Some a -> t_get y i = Some b ->
      exists c, t_get r i = Some c /\ copysign_result f a b c.
Proof. exact copysign_call_ok. Qed.
Print Assumptions C68_copysign.

(* std functions that meet the hypotheses: the library's own for one element *)
Definition modf_ex (a : Z) : Z * Z := modf_lane skx_target RInstr binary64 ToNearest a.
Definition trunc_ex (a : Z) : Z := trunc_lane RInstr binary64 ToNearest a.
Definition isinf_ex (a : Z) : bool := isinf_lane skx_target binary64 a.
Example C68_std_ex : std_modf_ok binary64 modf_ex /\ std_trunc_ok binary64 trunc_ex /\ std_isinf_ok binary64 isinf_ex /\
  std_copysign_ok binary64 (copysign_lane binary64).
Proof.
  split; [|split; [|split]].
  - intros a Ha. destruct (C37_modf skx_target RInstr binary64 ToNearest [a] (or_intror eq_refl)) as (_ & _ & H); [constructor; auto|].
    destruct (H 0 a eq_refl) as (b & c & Eb & Ec & R). injection Eb as <-. injection Ec as <-. exact R.
  - intros a Ha. destruct (trunc_lane_ok RInstr binary64 ToNearest a (or_intror eq_refl) Ha) as [P D]. split; [exact P|].
    fold (trunc_ex a) in D. destruct (decode binary64 a) as [|s|s m] eqn:E; auto.
    exists s. split; auto.
    apply (trunc_sign RInstr binary64 ToNearest a s m (or_intror eq_refl)); auto.
  - intros a Ha. unfold isinf_ex. rewrite (isinf_decode binary64 ok64) by auto. destruct (decode binary64 a) as [|s|s m];
      split; try discriminate; eauto; intros [s' H]; discriminate.
  - intros a b Ha Hb. destruct (C37_copysign binary64 [a] [b] ok64) as [_ H]; auto.
    destruct (H 0 a b eq_refl eq_refl) as (r & Er & Hr). injection Er as <-. exact Hr.
Qed.

(* 2.5, -inf, 0.25, -3 in a register, -1.5 as a scalar: registers of 4 and 1 *)
Definition m_ex : tuple Z :=
  [Chunk 4 [0x4004000000000000; 0xfff0000000000000; 0x3fd0000000000000; 0xc008000000000000]%Z; Chunk 1 [0xbff8000000000000%Z]].
Example C68_hypotheses :
  fixed_size_type isa_avx2 TDouble 5 /\ is_fixed isa_avx2 TDouble 5 m_ex /\ all_patterns binary64 m_ex.
Proof.
  split; [split; [apply avx2_arch|split; [exact I|cbn; lia]]|]. split; [reflexivity|].
  intros i a. do 5 (destruct i as [|i]; [intros H; injection H as <-; split; [apply Z.leb_le; reflexivity|reflexivity]|]).
  intros H. destruct i; discriminate.
Qed.
Example C68_ex :
  modf_fixed modf_ex trunc_ex isinf_ex sse4_target RSse2 binary64 ToNearest m_ex
  = Some ([Chunk 4 [0x3fe0000000000000; 0x8000000000000000; 0x3fd0000000000000; 0x8000000000000000]%Z; Chunk 1 [0xbfe0000000000000%Z]],
          [Chunk 4 [0x4000000000000000; 0xfff0000000000000; 0; 0xc008000000000000]%Z; Chunk 1 [0xbff0000000000000%Z]]) /\
  copysign_call (copysign_lane binary64) binary64 m_ex
    [Chunk 4 [0x8000000000000000; 0; 0xfff0000000000000; 0xbff0000000000000]%Z; Chunk 1 [0%Z]]
  = Some [Chunk 4 [0xc004000000000000; 0x7ff0000000000000; 0xbfd0000000000000; 0xc008000000000000]%Z; Chunk 1 [0x3ff8000000000000%Z]].
Proof. split; vm_compute; reflexivity. Qed.
