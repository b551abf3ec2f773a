(* Proofs of C68. *)
From Coq Require Import ZArith List Bool Arith Lia.
From Verif Require Import Prelude X86Lanes BitMask Abi AbiSpec Fixed FixedSpec FixedProofs FixedApply FixedStorage FixedMixed FixedTop
  FloatSpec FloatRoundSpec FloatMathSpec FloatBits FloatArith FloatProofs FloatArithProofs FloatRound FloatRoundProofs FloatRoundTop
  FloatSign FloatTop FloatMath FloatMathProofs FloatMathTop FixedFrexpSpec FixedFrexpProofs FixedModf FixedModfSpec.
Import ListNotations.
Local Open Scope nat_scope.

(* modf_ok for any integral part *)
Section Format.
  Local Open Scope Z_scope.
  Context (f : fmt) (Hf : fmt_ok f).
  Lemma modf_any md x y (k : bool) : pattern f x -> trunc_ok f x y -> k = (match decode f x with DInf _ => true | _ => false end) ->
    modf_result false f (decode f x)
      (decode f (copysign_lane f (if k then zero_bits f else fsub f md x y) x)) (decode f y).
  Proof.
    intros Hx [PT HT] ->. destruct (zero_val f Hf) as [P0 V0].
    assert (PD : pattern f (fsub f md x y)) by apply (fsub_pattern f Hf).
    pose proof (sign_datum f Hf x) as SD.
    unfold modf_result. destruct (decode f x) as [|s|s m] eqn:D.
    - split; auto. apply (copysign_nan f Hf); auto. unfold fsub. apply (nan_add_l f Hf). auto.
    - split; auto. rewrite (copysign_decode f Hf (zero_bits f) x false 0); auto using zero_decode. congruence.
    - destruct (finite_arg f Hf x s m Hx D) as (S & Em & Ha & Hm & V & VA & PA & RM).
      pose proof (one_pos f Hf) as HU.
      pose proof (Z.div_mod m (one f) ltac:(lia)) as DM. pose proof (Z.mod_pos_bound m (one f) HU) as DB.
      assert (Q : 0 <= m / one f) by (apply Z.div_pos; lia).
      assert (SUB : fval f (fsub f md x y) = Some (num s m - num s (m / one f * one f))).
      { apply (fsub_exact f Hf); auto.
        replace (num s m - num s (m / one f * one f)) with (num s (m mod one f)) by (destruct s; simpl; lia).
        apply (repr_num f). apply (frac_repr f Hf x s m Hx D). }
      unfold fval in SUB, HT. destruct (decode f (fsub f md x y)) as [|?|s1 m1] eqn:D1; try discriminate.
      destruct (decode f y) as [|?|s2 m2] eqn:D2; try discriminate. inversion SUB as [E1]. inversion HT as [E2].
      destruct (finite_arg f Hf _ s1 m1 PD D1) as (_ & _ & _ & Hm1 & _).
      destruct (finite_arg f Hf _ s2 m2 PT D2) as (_ & _ & _ & Hm2 & _).
      exists (m mod one f), (m / one f), s2.
      split. { rewrite (copysign_decode f Hf _ x s1 m1 PD Hx D1). rewrite S. f_equal. destruct s, s1; cbn [num] in E1; lia. }
      split. { f_equal. destruct s, s2; cbn [num] in E2; lia. }
      split; [lia|]. split; [lia|]. split; [lia|].
      intros [NZ|Hb]; [|discriminate].
      assert (0 < m / one f * one f) by nia. destruct s, s2; cbn [num] in E2; auto; lia.
  Qed.
End Format.

Lemma chunk_rel I t n (F : nat -> list Z -> list (list Z) -> list Z) (x : tuple Z) (R : Z -> Z -> Prop) :
  fixed_size_type I t n -> is_fixed I t n x ->
  Forall (fun c => length (F (csize c) (creg c) []) = length (creg c) /\
                   Forall2 R (celems c) (firstn (csize c) (F (csize c) (creg c) []))) x ->
  is_fixed I t n (apply_per_chunk F x []) /\
  forall i a, i < n -> t_get x i = Some a -> exists b, t_get (apply_per_chunk F x []) i = Some b /\ R a b.
Proof.
  intros Hf Hx Hg. destruct (fixed_facts I t n x Hf Hx) as (Hd & Hs & Hok & Hl & Hne).
  assert (Hsh : tshape (apply_per_chunk F x []) = tshape x).
  { clear - Hg. induction Hg as [|c x (H & _) _ IH]; auto. cbn [apply_per_chunk]. change (@tails Z []) with (@nil (tuple Z)).
    unfold tshape in *. cbn [map]. rewrite IH. f_equal. unfold cshape. cbn [csize creg heads map]. rewrite H. auto. }
  assert (Hy : is_fixed I t n (apply_per_chunk F x [])) by (unfold is_fixed in *; rewrite Hsh; auto).
  split; auto.
  assert (H2 : Forall2 R (telems x) (telems (apply_per_chunk F x []))).
  { clear - Hg. induction Hg as [|c x (_ & H) _ IH]; [constructor|]. cbn [apply_per_chunk].
    change (@tails Z []) with (@nil (tuple Z)). unfold telems in *. cbn [flat_map]. apply Forall2_app; auto. }
  intros i a Hi Ha. rewrite (fixed_get_nth I t n x i a Hf Hx Hi) in Ha. injection Ha as Ha.
  exists (nth i (telems (apply_per_chunk F x [])) a). split; [apply (fixed_get_nth I t n _ i a Hf Hy Hi)|].
  rewrite <- Ha at 1. clear - H2 Hi Hl. rewrite <- Hl in Hi. clear Hl. revert i Hi.
  induction H2; intros [|i] Hi; simpl in *; auto; try lia. apply IHForall2. lia.
Qed.

Lemma test_ext (F G : nat -> list Z -> list (list Z) -> list bool) (x : tuple Z) :
  Forall (fun c => firstn (csize c) (F (csize c) (creg c) []) = firstn (csize c) (G (csize c) (creg c) [])) x ->
  t_test F x [] = t_test G x [].
Proof.
  induction 1 as [|c x H _ IH]; auto. cbn [t_test]. change (@tails Z []) with (@nil (tuple Z)). rewrite IH.
  cbn [heads map]. unfold reg_to_bits. rewrite H. auto.
Qed.

Lemma lanes2_lanewise op : lanewise (fun a bs => op a (hd a bs)) (lanes2 op).
Proof.
  intros n reg regs Hn Hr. unfold lanes2.
  assert (Hh : length (hd reg regs) = length reg) by (destruct Hr; auto).
  split; [rewrite map_length, combine_length; lia|]. intros i d Hi.
  rewrite (nth_indep _ d (op (fst (d, d)) (snd (d, d)))) by (rewrite map_length, combine_length; lia).
  rewrite (map_nth (fun p => op (fst p) (snd p))), combine_nth by auto. cbn [fst snd]. destruct regs; auto.
Qed.
Lemma op_fixed_ok op I t n x y : fixed_size_type I t n -> is_fixed I t n x -> is_fixed I t n y ->
  is_fixed I t n (op_fixed op x y) /\
  forall i a b, i < n -> t_get x i = Some a -> t_get y i = Some b -> t_get (op_fixed op x y) i = Some (op a b).
Proof.
  intros Hf Hx Hy. destruct (c06_same I t n _ _ x [y] Hf (lanes2_lanewise op) Hx (Forall_cons _ Hy (Forall_nil _))) as [H1 H2].
  split; auto. intros i a b Hi Ha Hb. apply (H2 i a [b]); auto. unfold elements_at. cbn [map]. rewrite Hb. auto.
Qed.
Lemma assign_lanewise : lanewise_masked1 (fun _ s => s) reg_assign.
Proof.
  intros n k a s Hn Hk. unfold reg_assign. split; [rewrite map_length, seq_length; auto|].
  intros i d Hi. rewrite nth_map_seq by lia. rewrite Nat.add_0_l. destruct (Nat.ltb_spec i n); [|lia]. cbn [andb].
  destruct (nth i k false); auto. apply nth_indep. lia.
Qed.
Lemma copysign_fixed_ok f I t n x y : fixed_size_type I t n -> is_fixed I t n x -> is_fixed I t n y ->
  is_fixed I t n (copysign_fixed f x y) /\
  forall i a b, i < n -> t_get x i = Some a -> t_get y i = Some b -> t_get (copysign_fixed f x y) i = Some (copysign_lane f a b).
Proof.
  intros Hf Hx Hy. unfold copysign_fixed. cbv zeta.
  destruct (c05_broadcast I t n (one_bits f) (tshape x) Hf Hx) as [B1 B2].
  destruct (c05_broadcast I t n (minus_one_bits f) (tshape x) Hf Hx) as [C1 C2].
  destruct (op_fixed_ok Z.lxor I t n _ _ Hf B1 C1) as [S1 S2]. set (sm := op_fixed Z.lxor (fs_broadcast _ _) _) in *.
  destruct (op_fixed_ok Z.lxor I t n x sm Hf Hx S1) as [X1 X2].
  destruct (op_fixed_ok Z.land I t n x _ Hf Hx X1) as [L1 L2].
  destruct (op_fixed_ok Z.land I t n y sm Hf Hy S1) as [R1 R2].
  destruct (op_fixed_ok Z.lor I t n _ _ Hf L1 R1) as [O1 O2].
  split; auto. intros i a b Hi Ha Hb. pose proof (S2 i _ _ Hi (B2 i Hi) (C2 i Hi)) as HS.
  exact (O2 i _ _ Hi (L2 i _ _ Hi Ha (X2 i _ _ Hi Ha HS)) (R2 i _ _ Hi Hb HS)).
Qed.

Lemma std_trunc_trunc f st x : fmt_ok f -> std_trunc_ok f st -> pattern f x -> trunc_ok f x (st x).
Proof.
  intros Hf H Hx. destruct (H x Hx) as [P D]. split; auto. destruct (decode f x) as [|s|s m]; auto.
  destruct D as (s' & E & Hs). unfold fval. rewrite E. f_equal. fold (one f).
  destruct (Z.eq_dec (m / one f) 0) as [Z0|NZ]; [rewrite Z0; destruct s, s'; reflexivity|rewrite Hs; auto].
Qed.
Lemma map_forall2 {X Y} (P : X -> Y -> Prop) (g : X -> Y) l : Forall (fun a => P a (g a)) l -> Forall2 P l (map g l).
Proof. induction 1; constructor; auto. Qed.

Lemma modf_fixed_ok std_modf std_trunc std_isinf t rt f md I ty n x :
  elem_format ty f -> fixed_size_type I ty n ->
  std_modf_ok f std_modf -> std_trunc_ok f std_trunc -> std_isinf_ok f std_isinf ->
  is_fixed I ty n x -> all_patterns f x ->
  exists fr it, modf_fixed std_modf std_trunc std_isinf t rt f md x = Some (fr, it) /\
    is_fixed I ty n fr /\ is_fixed I ty n it /\
    forall i a, i < n -> t_get x i = Some a -> exists b c, t_get fr i = Some b /\ t_get it i = Some c /\
      modf_result false f (decode f a) (decode f b) (decode f c).
Proof.
  intros Hty Hf Hm Ht Hinf Hx HP. destruct (elem_format_fp ty f Hty) as [Hft Hr]. pose proof (real_ok f Hr) as Hok.
  destruct (fixed_facts I ty n x Hf Hx) as (Hd & Hs & Hco & Hl & Hne).
  unfold modf_fixed. rewrite Hs. destruct (Nat.eqb_spec n 1) as [->|Hn1].
  - unfold is_fixed in *. rewrite (storage_one_fp I ty f Hty) in *.
    injection Hx as Hx. destruct (one_shape x (eq_sym Hx)) as [a ->].
    exists [Chunk 1 [fst (std_modf a)]], [Chunk 1 [snd (std_modf a)]]. split; [reflexivity|]. split; [reflexivity|].
    split; [reflexivity|]. intros i b Hi Hb. assert (i = 0) by lia. subst i. injection Hb as <-.
    exists (fst (std_modf a)), (snd (std_modf a)). split; [reflexivity|]. split; [reflexivity|].
    apply Hm. apply (HP 0). reflexivity.
  - cbv zeta. pose proof (patterns_chunks f x (patterns_elems I ty n f x Hf Hx HP)) as HC.
    assert (Htr : Forall (fun c => forall F, F = (if csize c =? 1 then map std_trunc (creg c) else map (trunc_lane rt f md) (creg c)) ->
        length F = length (creg c) /\ Forall2 (trunc_ok f) (celems c) (firstn (csize c) F)) x).
    { rewrite Forall_forall in *. intros c Hc F ->. specialize (HC c Hc). destruct (csize c =? 1); rewrite map_length; split; auto;
        rewrite firstn_map; apply map_forall2; eapply Forall_impl; try exact HC; intros a Ha; cbn beta.
      - apply std_trunc_trunc; auto.
      - apply trunc_lane_ok; auto. }
    assert (Htr' : Forall (fun c => length (if csize c =? 1 then map std_trunc (creg c) else map (trunc_lane rt f md) (creg c)) = length (creg c) /\
        Forall2 (trunc_ok f) (celems c) (firstn (csize c) (if csize c =? 1 then map std_trunc (creg c) else map (trunc_lane rt f md) (creg c)))) x).
    { eapply Forall_impl; [|exact Htr]. intros c H. apply H. auto. }
    destruct (chunk_rel I ty n (fun m reg _ => if m =? 1 then map std_trunc reg else map (trunc_lane rt f md) reg) x _ Hf Hx Htr')
      as [T1 T2]. fold (trunc_fixed std_trunc rt f md x) in T1, T2. set (it := trunc_fixed std_trunc rt f md x) in *.
    set (g := fun a => match decode f a with DInf _ => true | _ => false end).
    assert (Hk : isinf_fixed std_isinf t f x = t_test (fun _ reg _ => map g reg) x []).
    { apply test_ext. rewrite Forall_forall in *. intros c Hc. specialize (HC c Hc).
      destruct (csize c =? 1); rewrite !firstn_map; apply map_ext_in; intros a Ha; rewrite Forall_forall in HC; specialize (HC a Ha).
      - unfold g. destruct (std_isinf a) eqn:E.
        + apply Hinf in E; auto. destruct E as [s ->]. auto.
        + destruct (decode f a) as [|s|] eqn:D; auto. exfalso. assert (std_isinf a = true) by (apply Hinf; eauto). congruence.
      - apply (isinf_decode f Hok); auto. }
    assert (HL : lanewise_pred (fun a _ => g a) (fun (_ : nat) (reg : list Z) (_ : list (list Z)) => map g reg)).
    { intros m reg regs Hn _. rewrite map_length. split; auto. intros i d Hi.
      rewrite (nth_indep _ false (g d)) by (rewrite map_length; lia). apply map_nth. }
    destruct (c07_test I ty n _ _ x [] Hf HL Hx (Forall_nil _)) as [K1 K2]. rewrite Hk. set (k := t_test _ x []) in *.
    destruct (op_fixed_ok (fsub f md) I ty n x it Hf Hx T1) as [D1 D2]. set (r := op_fixed _ x it) in *.
    destruct (c08_scalar I ty n _ reg_assign k r (zero_bits f) Hf assign_lanewise D1 K1) as [A1 A2].
    destruct (copysign_fixed_ok f I ty n (fs_masked_scalar reg_assign k r (zero_bits f)) x Hf A1 Hx) as [P1 P2].
    eexists _, it. split; [reflexivity|]. split; [exact P1|]. split; [exact T1|].
    intros i a Hi Ha. destruct (T2 i a Hi Ha) as (y & Ey & Hy). pose proof (D2 i a y Hi Ha Ey) as Er.
    pose proof (A2 i _ Hi Er) as Eas. pose proof (P2 i _ _ Hi Eas Ha) as Ep.
    eexists _, y. split; [exact Ep|]. split; [exact Ey|]. apply (modf_any f Hok md a y); auto.
    { apply (HP i). auto. } rewrite (K2 i a []); [reflexivity|auto|auto|reflexivity].
Qed.

Lemma copysign_call_ok std_copysign f I ty n x y :
  elem_format ty f -> fixed_size_type I ty n -> std_copysign_ok f std_copysign ->
  is_fixed I ty n x -> is_fixed I ty n y -> all_patterns f x -> all_patterns f y ->
  exists r, copysign_call std_copysign f x y = Some r /\ is_fixed I ty n r /\
    forall i a b, i < n -> t_get x i = Some a -> t_get y i = Some b ->
      exists c, t_get r i = Some c /\ copysign_result f a b c.
Proof.
  intros Hty Hf Hstd Hx Hy HP HQ. destruct (elem_format_fp ty f Hty) as [Hft Hr]. pose proof (real_ok f Hr) as Hok.
  destruct (fixed_facts I ty n x Hf Hx) as (_ & Hs & _).
  unfold copysign_call. rewrite Hs. destruct (Nat.eqb_spec n 1) as [->|Hn1].
  - unfold is_fixed in *. rewrite (storage_one_fp I ty f Hty) in *.
    injection Hx as Hx. destruct (one_shape x (eq_sym Hx)) as [a ->]. injection Hy as Hy. destruct (one_shape y (eq_sym Hy)) as [b ->].
    exists [Chunk 1 [std_copysign a b]]. split; [reflexivity|]. split; [reflexivity|].
    intros i a' b' Hi Ha Hb. assert (i = 0) by lia. subst i. injection Ha as <-. injection Hb as <-.
    exists (std_copysign a b). split; [reflexivity|]. apply Hstd; [apply (HP 0)|apply (HQ 0)]; reflexivity.
  - destruct (copysign_fixed_ok f I ty n x y Hf Hx Hy) as [P1 P2]. eexists. split; [reflexivity|]. split; [exact P1|].
    intros i a b Hi Ha Hb. exists (copysign_lane f a b). split; [apply P2; auto|].
    destruct (c37_copysign f [a] [b] Hok) as [_ H]; auto.
    { constructor; [eapply HP; eauto|constructor]. }
    { constructor; [eapply HQ; eauto|constructor]. }
    destruct (H 0 a b eq_refl eq_refl) as (r & Er & Hr'). injection Er as <-. exact Hr'.
Qed.
