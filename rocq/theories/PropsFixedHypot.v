(* C69: hypot, the classification and the comparison functions of a
   simd<float or double, fixed_size<n>>: every element gets its result.
   hypot_result is in HypotSpec.v, the rest in FixedHypotSpec.v. *)
From Coq Require Import ZArith List Bool Lia.
From Verif Require Import Prelude X86Lanes BitMask Abi AbiSpec Fixed FixedSpec FloatSpec FloatRoundSpec FloatBits FloatArith FloatProofs FloatTop
  HypotSpec Hypot HypotTop FixedTop FixedFrexpSpec FixedHypot FixedHypotSpec FixedHypotProofs Targets PropsAbi PropsFixed PropsFloat PropsMath PropsHypot PropsFixedModf.
Import ListNotations.
Local Open Scope nat_scope.

(* I is the target; t m are its instructions and c m, fused m the contraction for
   a register of m elements; md is the rounding mode *)
Theorem C69_hypot : forall std_hypot c t f md I ty n x y,
  elem_format ty f -> fixed_size_type I ty n -> (forall m, target_ok (t m) /\ dq_ok (t m)) -> std_hypot_ok f md std_hypot ->
  is_fixed I ty n x -> is_fixed I ty n y -> all_patterns f x -> all_patterns f y ->
  exists r, hypot_fixed std_hypot c t f md x y = Some r /\ is_fixed I ty n r /\
    forall i a b, i < n -> t_get x i = Some a -> t_get y i = Some b ->
      exists v, t_get r i = Some v /\ hypot_result f md 5 2 [decode f a; decode f b] (decode f v).
Proof. exact hypot_fixed_ok. Qed.
Print Assumptions C69_hypot.

Theorem C69_hypot3 : forall c fused t f md I ty n x y z,
  elem_format ty f -> fixed_size_type I ty n -> (forall m, target_ok (t m) /\ dq_ok (t m)) ->
  is_fixed I ty n x -> is_fixed I ty n y -> is_fixed I ty n z -> all_patterns f x -> all_patterns f y -> all_patterns f z ->
  exists r, hypot3_fixed c fused t f md x y z = Some r /\ is_fixed I ty n r /\
    forall i a b e, i < n -> t_get x i = Some a -> t_get y i = Some b -> t_get z i = Some e ->
      exists v, t_get r i = Some v /\ hypot_result f md 6 3 [decode f a; decode f b; decode f e] (decode f v).
Proof. exact hypot3_fixed_ok. Qed.
Print Assumptions C69_hypot3.

(* isinf, isfinite, isnan, isnormal, signbit: element i of the mask is the
   predicate of element i, no bit at or above n is set *)
Theorem C69_classify : forall std p t f I ty n x,
  elem_format ty f -> fixed_size_type I ty n -> (forall m, target_ok (t m) /\ dq_ok (t m)) -> std_pred1_ok f std ->
  is_fixed I ty n x -> all_lanes f x ->
  exists k, pred1_fixed std p t f x = Some k /\ bm_clean n k /\
    forall i a, i < n -> t_get x i = Some a -> bm_get n k i = pred1_value p f a.
Proof. exact pred1_fixed_ok. Qed.
Print Assumptions C69_classify.

(* isgreater .. islessequal, islessgreater, isunordered *)
Theorem C69_compare : forall std p t f I ty n x y,
  elem_format ty f -> fixed_size_type I ty n -> (forall m, target_ok (t m)) -> std_pred2_ok f std ->
  is_fixed I ty n x -> is_fixed I ty n y -> all_lanes f x -> all_lanes f y ->
  exists k, pred2_fixed std p t f x y = Some k /\ bm_clean n k /\
    forall i a b, i < n -> t_get x i = Some a -> t_get y i = Some b -> bm_get n k i = pred2_value p f a b.
Proof. exact pred2_fixed_ok. Qed.
Print Assumptions C69_compare.

(* std functions and objects that meet the hypotheses: registers of 4 and 1;
   m_ex is 2.5, -inf, 0.25, -3 and -1.5 *)
Definition hypot_ex (a b : Z) : Z :=
  match hypot_reg Separate sse4_target binary64 ToNearest [a] [b] with Some [r] => r | _ => 0%Z end.
Example C69_std_ex : std_hypot_ok binary64 ToNearest hypot_ex /\ std_pred1_ok binary64 (fun p a => pred1_value p binary64 a) /\
  std_pred2_ok binary64 (fun p a b => pred2_value p binary64 a b) /\ (target_ok sse4_target /\ dq_ok sse4_target).
Proof.
  destruct ex_hypotheses as (T & D & _).
  split; [|split; [intros p a _; reflexivity|split; [intros p a b _ _; reflexivity|auto]]].
  intros a b Ha Hb. unfold hypot_ex.
  destruct (C55_hypot Separate sse4_target binary64 ToNearest [a] [b]) as (r & E & L & H); auto.
  rewrite E. destruct (H 0 a b eq_refl eq_refl) as (v & Ev & R). destruct r as [|r0 [|]]; try discriminate. injection Ev as ->. exact R.
Qed.
Definition h_ex : tuple Z :=
  [Chunk 4 [0xc018000000000000; 0x7ff8000000000000; 0; 0x4010000000000000]%Z; Chunk 1 [0x4000000000000000%Z]].
Example C69_hypotheses : fixed_size_type isa_avx2 TDouble 5 /\ is_fixed isa_avx2 TDouble 5 m_ex /\ is_fixed isa_avx2 TDouble 5 h_ex /\
  all_lanes binary64 m_ex /\ all_lanes binary64 h_ex /\ all_patterns binary64 h_ex.
Proof.
  split; [apply C68_hypotheses|]. split; [reflexivity|]. split; [reflexivity|].
  split; [|split]; try (repeat constructor; try (apply Z.leb_le; reflexivity); reflexivity).
  intros i a. do 5 (destruct i as [|i]; [intros H; injection H as <-; split; [apply Z.leb_le; reflexivity|reflexivity]|]).
  intros H. destruct i; discriminate.
Qed.
(* hypot(2.5, -6) = 6.5, hypot(-inf, NaN) = inf, hypot(0.25, 0) = 0.25,
   hypot(-3, 4) = 5, hypot(-1.5, 2) = 2.5 *)
Example C69_ex :
  hypot_fixed hypot_ex (fun _ => Separate) (fun _ => sse4_target) binary64 ToNearest m_ex h_ex
  = Some [Chunk 4 [0x401a000000000000; 0x7ff0000000000000; 0x3fd0000000000000; 0x4014000000000000]%Z; Chunk 1 [0x4004000000000000%Z]] /\
  option_map (bm_list 5) (pred1_fixed (fun p a => pred1_value p binary64 a) P_isfinite (fun _ => sse4_target) binary64 m_ex)
  = Some [true; false; true; true; true] /\
  option_map (bm_list 5) (pred2_fixed (fun p a b => pred2_value p binary64 a b) (P_ord RGreaterEqual) (fun _ => sse4_target) binary64 m_ex h_ex)
  = Some [true; false; true; false; false].
Proof. split; [|split]; vm_compute; reflexivity. Qed.
