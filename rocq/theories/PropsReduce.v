(* Reductions (C13, C14, C44) and element-wise min, max, clamp (C38). *)
From Coq Require Import List Arith Bool NArith ZArith Lia.
From Verif Require Import Prelude MaskSpec BitMask BitMaskProofs Abi AbiSpec AbiProofs PropsAbi Fixed FixedSpec FixedProofs
  FixedApply FixedTop PropsFixed Reduce ReduceSpec ReduceProofs ReduceFixed ReduceTop.
Import ListNotations.

(* ===================== C13 ============================================ *)
(* reduce(v, op) of a simd in one register: each of the n elements is combined
   exactly once and no padding lane takes part *)
Theorem C13_register_reduce : forall {A} I t op F o (zero : A) n x,
  arch_ok I -> reg_type I t n (length x) -> assoc_comm op -> lanewise2 op F -> op_ok op o ->
  simd_reduce I t zero F o n x = fold1 op (firstn n x).
Proof. intros A I t op F o zero n x HI Hr Ha HF Ho. exact (simd_reduce_spec I t op F o n zero x HI Ha HF Ho Hr). Qed.
Print Assumptions C13_register_reduce.

(* reduce of a fixed_size simd of any storage *)
Theorem C13_fixed_reduce : forall {A} I t n op F o (zero : A) x,
  fixed_size_type I t n -> is_fixed I t n x -> assoc_comm op -> lanewise2 op F -> op_ok op o ->
  fs_reduce I t zero F o (length x) x = fold1 op (telems x) /\
  (forall i, i < n -> nth_error (telems x) i = t_get x i) /\ length (telems x) = n.
Proof.
  intros A I t n op F o zero x Hf Hx Ha HF Ho. destruct (fixed_facts I t n x Hf Hx) as (_ & _ & _ & Hl & _).
  split; [|split].
  - destruct Hf as (HI & Ht & Hn). exact (fs_reduce_spec I t op F o zero HI Ht Ha HF Ho (length x) n x Hn Hx (le_n _)).
  - intros i Hi. destruct (t_get x i) as [a|] eqn:E.
    + rewrite <- E. rewrite (fixed_get_nth I t n x i a Hf Hx Hi). apply nth_error_nth'. lia.
    + pose proof (fixed_get I t n x i Hf Hx Hi) as (a & G & _). congruence.
  - exact Hl.
Qed.
Print Assumptions C13_fixed_reduce.

(* non-vacuity: 3 floats in a 4-lane register with garbage in the padding, *)
Definition Fz (op : Z -> Z -> Z) (n : nat) (a b : list Z) : list Z := map2 op a b.
Lemma Fz_lanewise op : lanewise2 op (Fz op).
Proof.
  intros n a b Hn Hl. unfold Fz. rewrite map2_length. split; [lia|].
  intros i d Hi. apply map2_nth; lia.
Qed.
Lemma add_ac : assoc_comm Z.add.
Proof. split; intros; lia. Qed.

Example C13_register_nonvacuous :
  reg_type isa_avx2 TFloat 3 (length [1; 2; 3; 99]%Z) /\
  simd_reduce isa_avx2 TFloat 0%Z (Fz Z.add) (RPlus 0%Z) 3 [1; 2; 3; 99]%Z = Some 6%Z /\
  simd_reduce isa_avx2 TFloat 0%Z (Fz Z.mul) (RMultiplies 1%Z) 3 [1; 2; 3; 99]%Z = Some 6%Z /\
  simd_reduce isa_avx2 TFloat 0%Z (Fz Z.max) ROther 3 [1; 2; 3; 99]%Z = Some 3%Z.
Proof. split; [right; split; [lia|split; [cbn; lia|reflexivity]]|]. repeat split; reflexivity. Qed.

(* fixed_size<11> of float on AVX2: registers of 8 and 4 lanes, the second with
   one padding lane *)
Definition x11 : tuple Z := [Chunk 8 [1; 2; 3; 4; 5; 6; 7; 8]%Z; Chunk 3 [9; 10; 11; 99]%Z].
Lemma x11_fixed : fixed_size_type isa_avx2 TFloat 11 /\ is_fixed isa_avx2 TFloat 11 x11.
Proof. split; [split; [apply avx2_arch|split; [exact I|cbn; lia]]|reflexivity]. Qed.
Example C13_fixed_nonvacuous :
  fixed_size_type isa_avx2 TFloat 11 /\ is_fixed isa_avx2 TFloat 11 x11 /\
  fs_reduce isa_avx2 TFloat 0%Z (Fz Z.add) (RPlus 0%Z) (length x11) x11 = Some 66%Z /\
  fs_reduce isa_avx2 TFloat 0%Z (Fz Z.max) ROther (length x11) x11 = Some 11%Z.
Proof. split; [apply x11_fixed|]. split; [apply x11_fixed|]. split; reflexivity. Qed.

(* ===================== C14 ============================================ *)
(* reduce(where(k, v), identity, op) *)
Theorem C14_register_masked_reduce : forall {A} I t op F o zero n none k (x : list A) e,
  arch_ok I -> reg_type I t n (length x) -> assoc_comm op -> lanewise2 op F -> op_ok op o ->
  neutral op e -> length k = length x -> none k = negb (any_true (firstn n k)) ->
  where_reduce none (reg_broadcast (length x)) reg_masked_assign (simd_reduce I t zero F o n) k x e
  = Some (match fold1 op (select (firstn n k) (firstn n x)) with Some v => v | None => e end).
Proof. exact @c14_reg. Qed.
Print Assumptions C14_register_masked_reduce.

Theorem C14_fixed_masked_reduce : forall {A} I t n op F o zero asg k (x : tuple A) s e,
  fixed_size_type I t n -> is_fixed I t n x -> storage_shape I t n = Some s ->
  assoc_comm op -> lanewise2 op F -> op_ok op o -> neutral op e ->
  lanewise_masked2 (fun _ b => b) asg -> bm_clean n k ->
  where_reduce (fsm_none_of n) (fs_broadcast s) (fs_masked_binary asg)
    (fs_reduce I t zero F o (length s)) k x e
  = Some (match fold1 op (select (bm_list n k) (telems x)) with Some v => v | None => e end).
Proof.
  intros A I t n op F o zero asg k x s e Hf Hx Hs Ha HF Ho He Hasg Hk.
  exact (c14_fixed I t n op F o zero asg (fsm_none_of n) k x s e Hf Hx Hs Ha HF Ho He Hasg Hk
    (bm_none_list n true k (proj1 (proj2 (proj2 Hf))) (proj1 Hk) (fun _ => Hk))).
Qed.
Print Assumptions C14_fixed_masked_reduce.

(* hmin(where(k, v)), hmax(where(k, v)) of integers in the range of T *)
Theorem C14_register_hmin : forall I t zero n k x lo hi,
  arch_ok I -> reg_type I t n (length x) -> length k = length x ->
  Forall (fun v => lo <= v <= hi)%Z (firstn n x) ->
  exists m,
    where_hminmax (reg_broadcast (length x)) reg_masked_assign
      (simd_reduce I t zero (impl_min Z.ltb) ROther n) k x hi = Some m /\
    (select (firstn n k) (firstn n x) <> [] -> is_least Z.ltb (select (firstn n k) (firstn n x)) m) /\
    (select (firstn n k) (firstn n x) = [] -> m = hi).
Proof.
  intros I t zero n k x lo hi HI Hr Hk Hx.
  exact (int_least _ _ _ lo hi Hx (hmin_reg Z.ltb I t _ zero n k x hi zlt_total (impl_min_lanewise _ zlt_total) HI Hr Hk)).
Qed.
Print Assumptions C14_register_hmin.

Theorem C14_register_hmax : forall I t zero n k x lo hi,
  arch_ok I -> reg_type I t n (length x) -> length k = length x ->
  Forall (fun v => lo <= v <= hi)%Z (firstn n x) ->
  exists m,
    where_hminmax (reg_broadcast (length x)) reg_masked_assign
      (simd_reduce I t zero (impl_max Z.ltb) ROther n) k x lo = Some m /\
    (select (firstn n k) (firstn n x) <> [] -> is_greatest Z.ltb (select (firstn n k) (firstn n x)) m) /\
    (select (firstn n k) (firstn n x) = [] -> m = lo).
Proof.
  intros I t zero n k x lo hi HI Hr Hk Hx.
  exact (int_greatest _ _ _ lo hi Hx (hmin_reg (gt Z.ltb) I t _ zero n k x lo (gt_total _ zlt_total)
    (impl_max_lanewise _ zlt_total) HI Hr Hk)).
Qed.
Print Assumptions C14_register_hmax.

Theorem C14_fixed_hmin : forall I t zero n asg k x s lo hi,
  fixed_size_type I t n -> is_fixed I t n x -> storage_shape I t n = Some s ->
  lanewise_masked2 (fun _ b => b) asg -> bm_clean n k ->
  Forall (fun v => lo <= v <= hi)%Z (telems x) ->
  exists m,
    where_hminmax (fs_broadcast s) (fs_masked_binary asg)
      (fs_reduce I t zero (impl_min Z.ltb) ROther (length s)) k x hi = Some m /\
    (select (bm_list n k) (telems x) <> [] -> is_least Z.ltb (select (bm_list n k) (telems x)) m) /\
    (select (bm_list n k) (telems x) = [] -> m = hi).
Proof.
  intros I t zero n asg k x s lo hi Hf Hx Hs Ha Hk Hr.
  exact (int_least _ _ _ lo hi Hr (hmin_fixed Z.ltb I t _ zero n asg k x s hi zlt_total
    (impl_min_lanewise _ zlt_total) Hf Hx Hs Ha Hk)).
Qed.
Print Assumptions C14_fixed_hmin.

Theorem C14_fixed_hmax : forall I t zero n asg k x s lo hi,
  fixed_size_type I t n -> is_fixed I t n x -> storage_shape I t n = Some s ->
  lanewise_masked2 (fun _ b => b) asg -> bm_clean n k ->
  Forall (fun v => lo <= v <= hi)%Z (telems x) ->
  exists m,
    where_hminmax (fs_broadcast s) (fs_masked_binary asg)
      (fs_reduce I t zero (impl_max Z.ltb) ROther (length s)) k x lo = Some m /\
    (select (bm_list n k) (telems x) <> [] -> is_greatest Z.ltb (select (bm_list n k) (telems x)) m) /\
    (select (bm_list n k) (telems x) = [] -> m = lo).
Proof.
  intros I t zero n asg k x s lo hi Hf Hx Hs Ha Hk Hr.
  exact (int_greatest _ _ _ lo hi Hr (hmin_fixed (gt Z.ltb) I t _ zero n asg k x s lo (gt_total _ zlt_total)
    (impl_max_lanewise _ zlt_total) Hf Hx Hs Ha Hk)).
Qed.
Print Assumptions C14_fixed_hmax.

Definition asgz (n : nat) (k : list bool) (a b : list Z) : list Z :=
  map3 (fun (c : bool) x y => if c then y else x) (k ++ repeat true (length a - n)) a b.
Lemma asgz_lanewise : lanewise_masked2 (fun _ b => b) asgz.
Proof.
  intros n k a b Hn Hb Hk. unfold asgz. rewrite map3_length, app_length, repeat_length. split; [lia|].
  intros i d Hi. rewrite (map3_nth _ _ _ _ i false d d) by (rewrite ?app_length, ?repeat_length; lia).
  rewrite app_nth1 by lia. auto.
Qed.
(* the mask's padding lane is set: it must not select the garbage *)
Example C14_register_nonvacuous :
  reg_type isa_avx2 TFloat 3 (length [4; 2; 3; 99]%Z) /\ neutral Z.add 0%Z /\
  where_reduce (fun k => negb (any_true (firstn 3 k))) (reg_broadcast 4) reg_masked_assign
    (simd_reduce isa_avx2 TFloat 0%Z (Fz Z.add) (RPlus 0%Z) 3) [true; false; true; true] [4; 2; 3; 99]%Z 0%Z
  = Some 7%Z /\
  where_hminmax (reg_broadcast 4) reg_masked_assign
    (simd_reduce isa_avx2 TFloat 0%Z (impl_min Z.ltb) ROther 3) [true; false; true; true] [4; 2; 3; 99]%Z 127%Z
  = Some 3%Z /\
  where_hminmax (reg_broadcast 4) reg_masked_assign
    (simd_reduce isa_avx2 TFloat 0%Z (impl_max Z.ltb) ROther 3) [false; false; false; true] [4; 2; 3; 99]%Z (-128)%Z
  = Some (-128)%Z.
Proof.
  split; [right; split; [lia|split; [cbn; lia|reflexivity]]|]. split; [intros a; lia|].
  repeat split; reflexivity.
Qed.
Example C14_fixed_nonvacuous : exists s,
  storage_shape isa_avx2 TFloat 11 = Some s /\ bm_clean 11 [1281%Z] /\
  lanewise_masked2 (fun _ b => b) asgz /\
  where_reduce (fsm_none_of 11) (fs_broadcast s) (fs_masked_binary asgz)
    (fs_reduce isa_avx2 TFloat 0%Z (Fz Z.add) (RPlus 0%Z) (length s)) [1281%Z] x11 0%Z = Some 21%Z.
Proof.
  eexists. split; [reflexivity|]. split; [|split; [exact asgz_lanewise|reflexivity]].
  split; [split; [reflexivity|repeat constructor; try lia]|].
  intros i Hi. change (bm_array_size 11 * bm_word_bits 11) with 16 in Hi.
  assert (H : i = 11 \/ i = 12 \/ i = 13 \/ i = 14 \/ i = 15) by lia.
  destruct H as [->|[->|[->|[->| ->]]]]; reflexivity.
Qed.

(* ===================== C44 ============================================ *)
(* Masked hmin/hmax of floating-point values: M is the largest finite value.
   False: the only selected element is +infinity, the result is finite_max. *)
Theorem C44_masked_hmin_refuted : exists I t n k x M,
  arch_ok I /\ reg_type I t n (length x) /\ length k = length x /\
  (forall z, In (Fin z) x -> - M <= z <= M)%Z /\
  select (firstn n k) (firstn n x) = [PInf] /\
  where_hminmax (reg_broadcast (length x)) reg_masked_assign
    (simd_reduce I t (Fin 0) (impl_min flt) ROther n) k x (Fin M) = Some (Fin M).
Proof.
  exists isa_avx2, TFloat, 4, [true; false; false; false], [PInf; Fin 1; Fin 2; Fin 3], 1000%Z.
  split; [apply avx2_arch|]. split; [right; split; [lia|split; [cbn; lia|reflexivity]]|].
  split; [reflexivity|]. split; [|split; reflexivity].
  intros z [H|[H|[H|[H|[]]]]]; inversion H; subst; lia.
Qed.
Print Assumptions C44_masked_hmin_refuted.

Theorem C44_masked_hmax_refuted : exists I t n k x M,
  arch_ok I /\ reg_type I t n (length x) /\ length k = length x /\
  (forall z, In (Fin z) x -> - M <= z <= M)%Z /\
  select (firstn n k) (firstn n x) = [NInf] /\
  where_hminmax (reg_broadcast (length x)) reg_masked_assign
    (simd_reduce I t (Fin 0) (impl_max flt) ROther n) k x (Fin (- M)) = Some (Fin (- M)).
Proof.
  exists isa_avx2, TFloat, 4, [true; false; false; false], [NInf; Fin 1; Fin 2; Fin 3], 1000%Z.
  split; [apply avx2_arch|]. split; [right; split; [lia|split; [cbn; lia|reflexivity]]|].
  split; [reflexivity|]. split; [|split; reflexivity].
  intros z [H|[H|[H|[H|[]]]]]; inversion H; subst; lia.
Qed.
Print Assumptions C44_masked_hmax_refuted.

(* True when some selected element is not +infinity (hmin) / -infinity (hmax),
   or when every element is selected.  Missing: the case refuted above. *)
Theorem C44_register_hmin_partial : forall I t zero n k x M,
  arch_ok I -> reg_type I t n (length x) -> length k = length x ->
  (forall z, In (Fin z) (firstn n x) -> - M <= z <= M)%Z ->
  (exists a, In a (select (firstn n k) (firstn n x)) /\ a <> PInf) \/ (forall b, In b (firstn n k) -> b = true) ->
  exists m,
    where_hminmax (reg_broadcast (length x)) reg_masked_assign
      (simd_reduce I t zero (impl_min flt) ROther n) k x (Fin M) = Some m /\
    is_least flt (select (firstn n k) (firstn n x)) m.
Proof.
  intros I t zero n k x M HI Hr Hk Hx Hc.
  exact (float_least _ _ M _ Hx Hc
    (hmin_reg flt I t _ zero n k x (Fin M) flt_total (impl_min_lanewise _ flt_total) HI Hr Hk)).
Qed.
Print Assumptions C44_register_hmin_partial.

Theorem C44_register_hmax_partial : forall I t zero n k x M,
  arch_ok I -> reg_type I t n (length x) -> length k = length x ->
  (forall z, In (Fin z) (firstn n x) -> - M <= z <= M)%Z ->
  (exists a, In a (select (firstn n k) (firstn n x)) /\ a <> NInf) \/ (forall b, In b (firstn n k) -> b = true) ->
  exists m,
    where_hminmax (reg_broadcast (length x)) reg_masked_assign
      (simd_reduce I t zero (impl_max flt) ROther n) k x (Fin (- M)) = Some m /\
    is_greatest flt (select (firstn n k) (firstn n x)) m.
Proof.
  intros I t zero n k x M HI Hr Hk Hx Hc.
  exact (float_greatest _ _ M _ Hx Hc
    (hmin_reg (gt flt) I t _ zero n k x (Fin (- M)) (gt_total _ flt_total) (impl_max_lanewise _ flt_total) HI Hr Hk)).
Qed.
Print Assumptions C44_register_hmax_partial.

Theorem C44_fixed_hmin_partial : forall I t zero n asg k x s M,
  fixed_size_type I t n -> is_fixed I t n x -> storage_shape I t n = Some s ->
  lanewise_masked2 (fun _ b => b) asg -> bm_clean n k ->
  (forall z, In (Fin z) (telems x) -> - M <= z <= M)%Z ->
  (exists a, In a (select (bm_list n k) (telems x)) /\ a <> PInf) \/ (forall b, In b (bm_list n k) -> b = true) ->
  exists m,
    where_hminmax (fs_broadcast s) (fs_masked_binary asg)
      (fs_reduce I t zero (impl_min flt) ROther (length s)) k x (Fin M) = Some m /\
    is_least flt (select (bm_list n k) (telems x)) m.
Proof.
  intros I t zero n asg k x s M Hf Hx Hs Ha Hk Hr Hc.
  exact (float_least _ _ M _ Hr Hc (hmin_fixed flt I t _ zero n asg k x s (Fin M) flt_total
    (impl_min_lanewise _ flt_total) Hf Hx Hs Ha Hk)).
Qed.
Print Assumptions C44_fixed_hmin_partial.

Theorem C44_fixed_hmax_partial : forall I t zero n asg k x s M,
  fixed_size_type I t n -> is_fixed I t n x -> storage_shape I t n = Some s ->
  lanewise_masked2 (fun _ b => b) asg -> bm_clean n k ->
  (forall z, In (Fin z) (telems x) -> - M <= z <= M)%Z ->
  (exists a, In a (select (bm_list n k) (telems x)) /\ a <> NInf) \/ (forall b, In b (bm_list n k) -> b = true) ->
  exists m,
    where_hminmax (fs_broadcast s) (fs_masked_binary asg)
      (fs_reduce I t zero (impl_max flt) ROther (length s)) k x (Fin (- M)) = Some m /\
    is_greatest flt (select (bm_list n k) (telems x)) m.
Proof.
  intros I t zero n asg k x s M Hf Hx Hs Ha Hk Hr Hc.
  exact (float_greatest _ _ M _ Hr Hc (hmin_fixed (gt flt) I t _ zero n asg k x s (Fin (- M)) (gt_total _ flt_total)
    (impl_max_lanewise _ flt_total) Hf Hx Hs Ha Hk)).
Qed.
Print Assumptions C44_fixed_hmax_partial.

Example C44_nonvacuous :
  (exists a, In a (select (firstn 3 [true; false; true; true]) (firstn 3 [PInf; NInf; Fin 3; NInf])) /\ a <> PInf) /\
  where_hminmax (reg_broadcast 4) reg_masked_assign
    (simd_reduce isa_avx2 TFloat (Fin 0) (impl_min flt) ROther 3)
    [true; false; true; true] [PInf; NInf; Fin 3; NInf] (Fin 1000) = Some (Fin 3).
Proof. split; [|reflexivity]. exists (Fin 3). split; [simpl; tauto|discriminate]. Qed.

(* ===================== C38 ============================================ *)
Theorem C38_register_min_max_clamp : forall {A} (lt : A -> A -> bool) n (a b c : list A),
  strict_total lt -> n <= length a -> length b = length a -> length c = length a ->
  forall i d, i < n ->
    nth i (impl_min lt n a b) d = std_min lt (nth i a d) (nth i b d) /\
    nth i (impl_max lt n a b) d = std_max lt (nth i a d) (nth i b d) /\
    (lt (nth i c d) (nth i b d) = false ->
     nth i (impl_clamp lt n a b c) d = std_clamp lt (nth i a d) (nth i b d) (nth i c d)).
Proof. exact @c38_reg. Qed.
Print Assumptions C38_register_min_max_clamp.

Theorem C38_register_minmax : forall {A} (lt : A -> A -> bool) n (a b : list A),
  strict_total lt -> n <= length a -> length b = length a ->
  forall i d, i < n ->
  (nth i (fst (reg_minmax lt a b)) d, nth i (snd (reg_minmax lt a b)) d)
  = std_minmax lt (nth i a d) (nth i b d).
Proof. exact @c38_minmax. Qed.
Print Assumptions C38_register_minmax.

Theorem C38_fixed_min : forall {A} I t n lt (x y : tuple A),
  fixed_size_type I t n -> strict_total lt -> is_fixed I t n x -> is_fixed I t n y ->
  is_fixed I t n (fs_min lt x y) /\
  forall i a b, i < n -> t_get x i = Some a -> t_get y i = Some b ->
    t_get (fs_min lt x y) i = Some (std_min lt a b).
Proof. exact @c38_fixed_min. Qed.
Print Assumptions C38_fixed_min.

Theorem C38_fixed_max : forall {A} I t n lt (x y : tuple A),
  fixed_size_type I t n -> strict_total lt -> is_fixed I t n x -> is_fixed I t n y ->
  is_fixed I t n (fs_max lt x y) /\
  forall i a b, i < n -> t_get x i = Some a -> t_get y i = Some b ->
    t_get (fs_max lt x y) i = Some (std_max lt a b).
Proof. exact @c38_fixed_max. Qed.
Print Assumptions C38_fixed_max.

Theorem C38_fixed_clamp : forall {A} I t n lt (v lo hi : tuple A),
  fixed_size_type I t n -> strict_total lt ->
  is_fixed I t n v -> is_fixed I t n lo -> is_fixed I t n hi ->
  is_fixed I t n (fs_clamp lt v lo hi) /\
  forall i a l h, i < n -> t_get v i = Some a -> t_get lo i = Some l -> t_get hi i = Some h ->
    lt h l = false -> t_get (fs_clamp lt v lo hi) i = Some (std_clamp lt a l h).
Proof. exact @c38_fixed_clamp. Qed.
Print Assumptions C38_fixed_clamp.

(* the specification of clamp is the expected one *)
Theorem C38_clamp_between : forall {A} (lt : A -> A -> bool) v lo hi,
  strict_total lt -> lt hi lo = false ->
  lt (std_clamp lt v lo hi) lo = false /\ lt hi (std_clamp lt v lo hi) = false /\
  (lt v lo = false -> lt hi v = false -> std_clamp lt v lo hi = v).
Proof. exact @std_clamp_between. Qed.
Print Assumptions C38_clamp_between.

Example C38_nonvacuous :
  strict_total Z.ltb /\ strict_total flt /\
  impl_clamp Z.ltb 3 [5; -5; 1; 7]%Z [0; 0; 0; 9]%Z [3; 3; 3; 1]%Z = [3; 0; 1; 1]%Z /\
  fs_min Z.ltb x11 (fs_max Z.ltb x11 x11) = x11 /\
  reg_minmax Z.ltb [1; 5]%Z [4; 2]%Z = ([1; 2], [4; 5])%Z.
Proof. split; [exact zlt_total|]. split; [exact flt_total|]. repeat split; reflexivity. Qed.
