(* Proofs of C69. *)
From Coq Require Import ZArith List Bool Arith Lia.
From Verif Require Import Prelude X86Lanes BitMask Abi AbiSpec Fixed FixedSpec FixedProofs FixedApply FixedMasks FloatSpec FloatRoundSpec FloatBits FloatArith FloatProofs
  FloatTop FloatRound HypotSpec Hypot HypotTop FixedTop FixedFrexpSpec FixedModfProofs FixedHypot FixedHypotSpec.
Import ListNotations.
Local Open Scope nat_scope.

(* K holds of every register and of the corresponding registers of the further
   operands *)
Fixpoint chunks_ok (K : nat -> list Z -> list (list Z) -> Prop) (x : tuple Z) (more : list (tuple Z)) : Prop :=
  match x with [] => True | c :: r => K (csize c) (creg c) (heads more) /\ chunks_ok K r (tails more) end.

Lemma chunks_impl (K L : nat -> list Z -> list (list Z) -> Prop) : (forall m reg regs, K m reg regs -> L m reg regs) ->
  forall x more, chunks_ok K x more -> chunks_ok L x more.
Proof. intros H x. induction x as [|c x IH]; intros more; cbn; auto. intros [A B]. auto. Qed.

Definition reg_ok (P : Z -> Prop) (m : nat) (reg : list Z) (regs : list (list Z)) : Prop :=
  m <= length reg /\ Forall (fun r => length r = length reg) regs /\
  Forall P (firstn m reg) /\ Forall (fun r => Forall P (firstn m r)) regs.

Lemma chunks_elems (P : Z -> Prop) : forall x more, Forall chunk_ok x -> Forall (fun y => tshape y = tshape x) more ->
  Forall P (telems x) -> Forall (fun y => Forall P (telems y)) more -> chunks_ok (reg_ok P) x more.
Proof.
  induction x as [|c x IH]; intros more Hok Hs Hx Hm; cbn [chunks_ok]; auto.
  inversion Hok as [|? ? Hc Hok']; subst. unfold telems in Hx. cbn [flat_map] in Hx. apply Forall_app in Hx. destruct Hx as [Hx1 Hx2].
  split.
  - split; [exact Hc|]. split; [eapply heads_length; exact Hs|]. split; [exact Hx1|].
    unfold heads. rewrite Forall_map. rewrite Forall_forall in *. intros y Hy. specialize (Hs y Hy). specialize (Hm y Hy).
    destruct y as [|d y]; [discriminate|]. unfold tshape in Hs. cbn [map] in Hs. injection Hs as E1 E2 _.
    unfold telems in Hm. cbn [flat_map] in Hm. apply Forall_app in Hm. destruct Hm as [Hm _]. unfold celems in Hm. rewrite E1 in Hm. exact Hm.
  - apply IH; auto.
    + eapply tails_shape; exact Hs.
    + unfold tails. rewrite Forall_map. rewrite Forall_forall in *. intros y Hy. specialize (Hm y Hy).
      destruct y as [|d y]; auto. unfold telems in Hm. cbn [flat_map] in Hm. apply Forall_app in Hm. apply Hm.
Qed.

Lemma apply_rel (R : Z -> list Z -> Z -> Prop) F : forall x more, Forall chunk_ok x -> Forall (fun t => tshape t = tshape x) more ->
  chunks_ok (fun m reg regs => length (F m reg regs) = length reg /\
    forall i d, i < m -> R (nth i reg d) (map (fun r => nth i r d) regs) (nth i (F m reg regs) d)) x more ->
  tshape (apply_per_chunk F x more) = tshape x /\
  forall i d, i < ssize (tshape x) ->
    R (nth i (telems x) d) (map (fun t => nth i (telems t) d) more) (nth i (telems (apply_per_chunk F x more)) d).
Proof.
  induction x as [|c x IH]; intros more Hok Hm HK.
  - split; auto. intros i d Hi. unfold ssize in Hi. simpl in Hi. lia.
  - inversion Hok as [|? ? Hc Hok']; subst. cbn [chunks_ok] in HK. destruct HK as [[HFl HFn] HK].
    destruct (IH (tails more) Hok') as [IHs IHe]; [eapply tails_shape; exact Hm|exact HK|].
    cbn [apply_per_chunk]. rewrite !tshape_cons, IHs. unfold cshape at 1. cbn [csize creg].
    rewrite HFl. split; auto.
    intros i d Hi. rewrite ssize_cons in Hi. change (fst (cshape c)) with (csize c) in Hi.
    assert (Hok1 : chunk_ok (Chunk (csize c) (F (csize c) (creg c) (heads more))))
      by (unfold chunk_ok; simpl; rewrite HFl; auto).
    destruct (le_lt_dec (csize c) i).
    + rewrite !nth_telems_tail by auto. cbn [csize].
      replace (map (fun t : tuple Z => nth i (telems t) d) more) with (map (fun t : tuple Z => nth (i - csize c) (telems t) d) (tails more)).
      * apply IHe. lia.
      * apply (pack_tail more (csize c) (length (creg c)) (tshape x) i d); auto.
    + rewrite !nth_telems_head by auto. cbn [creg].
      replace (map (fun t : tuple Z => nth i (telems t) d) more) with (map (fun r => nth i r d) (heads more)).
      * apply HFn. auto.
      * apply (pack_head more (csize c) (length (creg c)) (tshape x) i d); auto.
Qed.

Lemma test_rel F G : forall x more,
  chunks_ok (fun m reg regs => firstn m (F m reg regs) = firstn m (G m reg regs)) x more ->
  t_test F x more = t_test G x more.
Proof.
  induction x as [|c x IH]; intros more HK; auto. cbn [chunks_ok] in HK. destruct HK as [H HK].
  cbn [t_test]. rewrite (IH _ HK). unfold reg_to_bits. rewrite H. auto.
Qed.

Section Fixed.
Context (f : fmt) (I : isa) (ty : elem) (n : nat).
Context (Hf : fmt_ok f) (HT : fixed_size_type I ty n).

Lemma patterns_elems x : is_fixed I ty n x -> all_patterns f x -> Forall (pattern f) (telems x).
Proof.
  intros Hx Hp. destruct (fixed_facts I ty n x HT Hx) as (_ & _ & _ & Hl & _). apply Forall_forall. intros a Ha.
  apply (In_nth _ _ 0%Z) in Ha. destruct Ha as (i & Hi & Ea). rewrite Hl in Hi.
  apply (Hp i a). rewrite (fixed_get_nth I ty n x i 0%Z HT Hx Hi). f_equal. auto.
Qed.

Lemma apply_compiles G : forall x more, chunks_ok (fun m reg regs => G m reg regs <> None) x more -> per_register G x more = true.
Proof.
  induction x as [|c x IH]; intros more HK; auto. cbn [chunks_ok] in HK. destruct HK as [H HK]. cbn [per_register].
  destruct (G _ _ _); [apply IH; auto|congruence].
Qed.
Lemma tests_compile G : forall x more, chunks_ok (fun m reg regs => G m reg regs <> None) x more -> test_compiles G x more = true.
Proof.
  induction x as [|c x IH]; intros more HK; auto. cbn [chunks_ok] in HK. destruct HK as [H HK]. cbn [test_compiles].
  destruct (G _ _ _); [apply IH; auto|congruence].
Qed.

(* one call for every register *)
Lemma fixed_apply_ok G (R : Z -> list Z -> Z -> Prop) x more : is_fixed I ty n x -> Forall (is_fixed I ty n) more ->
  all_patterns f x -> Forall (all_patterns f) more ->
  (forall m reg regs, length regs = length more -> reg_ok (pattern f) m reg regs ->
     exists r, G m reg regs = Some r /\ length r = m /\
       forall i d, i < m -> R (nth i reg d) (map (fun r => nth i r d) regs) (nth i r d)) ->
  exists r, fixed_size_apply G x more = Some r /\ is_fixed I ty n r /\
    forall i a bs, i < n -> t_get x i = Some a -> elements_at i more bs -> exists v, t_get r i = Some v /\ R a bs v.
Proof.
  intros Hx Hm Px Pm HG. destruct (fixed_facts I ty n x HT Hx) as (Hd & Hs & Hok & Hl & Hne).
  pose proof (fixed_other I ty n x more Hx Hm) as Ho.
  assert (HC : chunks_ok (fun m reg regs => length regs = length more /\ reg_ok (pattern f) m reg regs) x more).
  { assert (HE : chunks_ok (reg_ok (pattern f)) x more).
    { apply chunks_elems; auto. - apply patterns_elems; auto.
      - rewrite Forall_forall in *. intros y Hy. apply patterns_elems; auto. }
    clear - HE. assert (forall k, length more = k -> chunks_ok (fun m reg regs => length regs = k /\ reg_ok (pattern f) m reg regs) x more); [|auto].
    intros k. revert more HE. induction x as [|c x IH]; intros more HE E; cbn [chunks_ok] in *; auto. destruct HE as [H1 H2].
    split; [split; auto; unfold heads; rewrite map_length; auto|]. apply IH; auto. unfold tails. rewrite map_length. auto. }
  unfold fixed_size_apply. rewrite apply_compiles; cycle 1.
  { eapply chunks_impl; [|exact HC]. intros m reg regs [E K]. destruct (HG m reg regs E K) as (r & Er & _). congruence. }
  eexists. split; [reflexivity|].
  match goal with |- is_fixed _ _ _ ?t /\ _ => set (r := t) end.
  destruct (apply_rel R (fun m reg regs => store_elems (G m reg regs) m reg) x more Hok Ho) as [S1 S2].
  { eapply chunks_impl; [|exact HC]. intros m reg regs [E K]. destruct (HG m reg regs E K) as (v & Er & Ev & HR).
    rewrite Er. unfold store_elems. destruct K as (K1 & _). split.
    - rewrite app_length, skipn_length, Ev. lia.
    - intros i d Hi. rewrite app_nth1 by lia. apply HR. auto. }
  assert (Hr : is_fixed I ty n r) by (unfold is_fixed in *; unfold r; rewrite S1; auto).
  split; auto. intros i a bs Hi Ha Hb. exists (nth i (telems r) a).
  split; [apply (fixed_get_nth I ty n r i a HT Hr Hi)|].
  rewrite (fixed_get_nth I ty n x i a HT Hx Hi) in Ha. injection Ha as Ha.
  pose proof (fixed_gets I ty n more i a HT Hm Hi) as Hg. unfold elements_at in *.
  rewrite Hg in Hb. apply map_some_inj in Hb. rewrite <- Ha at 1. rewrite <- Hb. apply S2. lia.
Qed.

Lemma nth_err {X} (l : list X) i d : i < length l -> nth_error l i = Some (nth i l d).
Proof. intros H. apply nth_error_nth'. auto. Qed.
Lemma nth_first (l : list Z) i m d : i < m -> nth i (firstn m l) d = nth i l d.
Proof. revert i m. induction l as [|a l IH]; intros [|i] [|m] H; simpl; auto; try lia. apply IH. lia. Qed.

Lemma hypot_elems_ok std_hypot c t md m reg regs : f = binary32 \/ f = binary64 -> target_ok t /\ dq_ok t -> std_hypot_ok f md std_hypot ->
  length regs = 1 -> reg_ok (pattern f) m reg regs ->
  exists r, hypot_elems std_hypot c t f md m reg (nth 0 regs []) = Some r /\ length r = m /\
    forall i d, i < m -> hypot_result f md 5 2 (map (decode f) (nth i reg d :: map (fun r => nth i r d) regs)) (decode f (nth i r d)).
Proof.
  intros Hf2 Ht Hstd Hl (K1 & K2 & K3 & K4). destruct regs as [|y [|]]; try discriminate. cbn [nth].
  inversion K2 as [|? ? K2' _]; subst. inversion K4 as [|? ? K4' _]; subst.
  unfold hypot_elems. destruct (Nat.eqb_spec m 1) as [->|Hm].
  - eexists. split; [reflexivity|]. split; [reflexivity|]. intros i d Hi. assert (i = 0) by lia. subst i. cbn [map nth].
    destruct reg as [|a reg]; [cbn in K1; lia|]. destruct y as [|b y]; [discriminate|]. cbn [nth].
    cbn [firstn] in *. inversion K3; subst. inversion K4'; subst. apply Hstd; auto.
  - assert (L1 : length (firstn m reg) = m) by (rewrite firstn_length; lia).
    assert (L2 : length (firstn m y) = m) by (rewrite firstn_length; lia).
    destruct (c55_hypot c t f md (firstn m reg) (firstn m y) Hf2 Ht K3 K4') as (r & Er & Lr & HR); [lia|].
    exists r. split; auto. split; [lia|]. intros i d Hi. cbn [map].
    destruct (HR i (nth i reg d) (nth i y d)) as (v & Ev & Rv).
    + rewrite (nth_err _ i d) by lia. f_equal. apply nth_first; auto.
    + rewrite (nth_err _ i d) by lia. f_equal. apply nth_first; auto.
    + rewrite (nth_err _ i d) in Ev by lia. injection Ev as ->. auto.
Qed.
Lemma hypot3_elems_ok c fused t md m reg regs : f = binary32 \/ f = binary64 -> target_ok t /\ dq_ok t ->
  length regs = 2 -> reg_ok (pattern f) m reg regs ->
  exists r, hypot3_reg c fused t f md (firstn m reg) (firstn m (nth 0 regs [])) (firstn m (nth 1 regs [])) = Some r /\ length r = m /\
    forall i d, i < m -> hypot_result f md 6 3 (map (decode f) (nth i reg d :: map (fun r => nth i r d) regs)) (decode f (nth i r d)).
Proof.
  intros Hf2 Ht Hl (K1 & K2 & K3 & K4). destruct regs as [|y [|z [|]]]; try discriminate. cbn [nth].
  inversion K2 as [|? ? K2' K2r]; subst. inversion K4 as [|? ? K4' K4r]; subst.
  inversion K2r as [|? ? K2z _]; subst. inversion K4r as [|? ? K4z _]; subst.
  assert (L1 : length (firstn m reg) = m) by (rewrite firstn_length; lia).
  assert (L2 : length (firstn m y) = m) by (rewrite firstn_length; lia).
  assert (L3 : length (firstn m z) = m) by (rewrite firstn_length; lia).
  destruct (c55_hypot3 c fused t f md (firstn m reg) (firstn m y) (firstn m z) Hf2 Ht K3 K4' K4z) as (r & Er & Lr & HR); [lia|lia|].
  exists r. split; auto. split; [lia|]. intros i d Hi. cbn [map].
  destruct (HR i (nth i reg d) (nth i y d) (nth i z d)) as (v & Ev & Rv);
    try (rewrite (nth_err _ i d) by lia; f_equal; apply nth_first; auto).
  rewrite (nth_err _ i d) in Ev by lia. injection Ev as ->. auto.
Qed.
End Fixed.

Lemma elem_fmts ty f : elem_format ty f -> f = binary32 \/ f = binary64.
Proof. intros [[_ H]|[_ H]]; auto. Qed.

Lemma hypot_fixed_ok std_hypot c t f md I ty n x y :
  elem_format ty f -> fixed_size_type I ty n -> (forall m, target_ok (t m) /\ dq_ok (t m)) -> std_hypot_ok f md std_hypot ->
  is_fixed I ty n x -> is_fixed I ty n y -> all_patterns f x -> all_patterns f y ->
  exists r, hypot_fixed std_hypot c t f md x y = Some r /\ is_fixed I ty n r /\
    forall i a b, i < n -> t_get x i = Some a -> t_get y i = Some b ->
      exists v, t_get r i = Some v /\ hypot_result f md 5 2 [decode f a; decode f b] (decode f v).
Proof.
  intros He HT Ht Hstd Hx Hy Px Py. destruct (fixed_facts I ty n x HT Hx) as (Hd & Hs & _). unfold hypot_fixed. rewrite Hs.
  destruct (Nat.eqb_spec n 1) as [->|Hn].
  - rewrite (fixed_get_nth I ty 1 x 0 0%Z HT Hx), (fixed_get_nth I ty 1 y 0 0%Z HT Hy) by lia.
    destruct (c05_broadcast I ty 1 (std_hypot (nth 0 (telems x) 0%Z) (nth 0 (telems y) 0%Z)) (tshape x) HT Hx) as [B1 B2].
    eexists. split; [reflexivity|]. split; [exact B1|]. intros i a b Hi Ha Hb. assert (i = 0) by lia. subst i.
    eexists. split; [apply B2; lia|].
    rewrite (fixed_get_nth I ty 1 x 0 0%Z HT Hx) in Ha by lia. injection Ha as Ha.
    rewrite (fixed_get_nth I ty 1 y 0 0%Z HT Hy) in Hb by lia. injection Hb as Hb. rewrite Ha, Hb. apply Hstd.
    + apply (Px 0). rewrite (fixed_get_nth I ty 1 x 0 0%Z HT Hx) by lia. congruence.
    + apply (Py 0). rewrite (fixed_get_nth I ty 1 y 0 0%Z HT Hy) by lia. congruence.
  - destruct (fixed_apply_ok f I ty n HT (fun m reg regs => hypot_elems std_hypot (c m) (t m) f md m reg (nth 0 regs []))
      (fun a bs v => hypot_result f md 5 2 (map (decode f) (a :: bs)) (decode f v)) x [y]) as (r & Er & Hr & HR); auto.
    { intros m reg regs Hl HK. apply hypot_elems_ok; auto. apply (elem_fmts ty); auto. }
    exists r. split; auto. split; auto. intros i a b Hi Ha Hb.
    destruct (HR i a [b] Hi Ha) as (v & Ev & Rv); [unfold elements_at; cbn [map]; rewrite Hb; auto|]. exists v. auto.
Qed.

Lemma hypot3_fixed_ok c fused t f md I ty n x y z :
  elem_format ty f -> fixed_size_type I ty n -> (forall m, target_ok (t m) /\ dq_ok (t m)) ->
  is_fixed I ty n x -> is_fixed I ty n y -> is_fixed I ty n z -> all_patterns f x -> all_patterns f y -> all_patterns f z ->
  exists r, hypot3_fixed c fused t f md x y z = Some r /\ is_fixed I ty n r /\
    forall i a b e, i < n -> t_get x i = Some a -> t_get y i = Some b -> t_get z i = Some e ->
      exists v, t_get r i = Some v /\ hypot_result f md 6 3 [decode f a; decode f b; decode f e] (decode f v).
Proof.
  intros He HT Ht Hx Hy Hz Px Py Pz. unfold hypot3_fixed.
  destruct (fixed_apply_ok f I ty n HT (fun m reg regs =>
      hypot3_reg (c m) (fused m) (t m) f md (firstn m reg) (firstn m (nth 0 regs [])) (firstn m (nth 1 regs [])))
      (fun a bs v => hypot_result f md 6 3 (map (decode f) (a :: bs)) (decode f v)) x [y; z]) as (r & Er & Hr & HR); auto.
  { intros m reg regs Hl HK. apply hypot3_elems_ok; auto. apply (elem_fmts ty); auto. }
  exists r. split; auto. split; auto. intros i a b e Hi Ha Hb Hc.
  destruct (HR i a [b; e] Hi Ha) as (v & Ev & Rv); [unfold elements_at; cbn [map]; rewrite Hb, Hc; auto|]. exists v. auto.
Qed.

(* predicates *)
Definition lanes_ok (f : fmt) (m : nat) (reg : list Z) (regs : list (list Z)) : Prop :=
  m <= length reg /\ Forall (fun r => length r = length reg) regs /\ Forall (pattern f) reg /\ Forall (Forall (pattern f)) regs.
Lemma chunks_lanes f k : forall x more, length more = k -> Forall chunk_ok x -> Forall (fun y => tshape y = tshape x) more ->
  all_lanes f x -> Forall (all_lanes f) more -> chunks_ok (fun m reg regs => length regs = k /\ lanes_ok f m reg regs) x more.
Proof.
  induction x as [|c x IH]; intros more Hk Hok Hs Hx Hm; cbn [chunks_ok]; auto.
  inversion Hok as [|? ? Hc Hok']; subst. inversion Hx as [|? ? Hx1 Hx2]; subst.
  split; [split; [unfold heads; apply map_length|]|].
  - split; [exact Hc|]. split; [eapply heads_length; exact Hs|]. split; [exact Hx1|].
    unfold heads. rewrite Forall_map. rewrite Forall_forall in *. intros y Hy. specialize (Hm y Hy).
    destruct y as [|d y]; [constructor|]. inversion Hm; auto.
  - apply IH; auto.
    + unfold tails. apply map_length.
    + eapply tails_shape; exact Hs.
    + unfold tails. rewrite Forall_map. rewrite Forall_forall in *. intros y Hy. specialize (Hm y Hy).
      destruct y as [|d y]; auto. inversion Hm; auto.
Qed.

Definition ideal (v : Z -> list Z -> bool) (m : nat) (reg : list Z) (regs : list (list Z)) : list bool :=
  map (fun i => v (nth i reg 0%Z) (map (fun r => nth i r 0%Z) regs)) (seq 0 m).
Lemma ideal_lanewise v : lanewise_pred v (ideal v).
Proof.
  intros m reg regs Hm Hr. unfold ideal. split; [rewrite map_length, seq_length; auto|]. intros i d Hi.
  rewrite (nth_indep _ false (v (nth 0 reg 0%Z) (map (fun r => nth 0 r 0%Z) regs))) by (rewrite map_length, seq_length; auto).
  rewrite (map_nth (fun i => v (nth i reg 0%Z) (map (fun r => nth i r 0%Z) regs))), seq_nth by auto. cbn [Nat.add].
  f_equal; [apply nth_indep; lia|]. apply map_ext_in. intros r H. rewrite Forall_forall in Hr. apply nth_indep. rewrite (Hr r H). lia.
Qed.
Lemma ideal_first v m reg regs k : m <= length k ->
  (forall i, i < m -> nth i k false = v (nth i reg 0%Z) (map (fun r => nth i r 0%Z) regs)) -> firstn m k = firstn m (ideal v m reg regs).
Proof.
  intros Hk H. assert (L : length (ideal v m reg regs) = m) by (unfold ideal; rewrite map_length, seq_length; auto).
  rewrite (firstn_all2 (ideal v m reg regs)) by lia.
  apply (nth_ext _ _ false false); [rewrite firstn_length; lia|]. rewrite firstn_length. intros i Hi.
  rewrite nth_firstn_lt by lia. rewrite H by lia. unfold ideal.
  rewrite (nth_indep _ false (v (nth 0 reg 0%Z) (map (fun r => nth 0 r 0%Z) regs))) by (rewrite map_length, seq_length; lia).
  rewrite (map_nth (fun i => v (nth i reg 0%Z) (map (fun r => nth i r 0%Z) regs))), seq_nth by lia. reflexivity.
Qed.

Lemma test_fixed_ok f I ty n G v x more : fixed_size_type I ty n ->
  is_fixed I ty n x -> Forall (is_fixed I ty n) more -> all_lanes f x -> Forall (all_lanes f) more ->
  (forall m reg regs, length regs = length more -> lanes_ok f m reg regs ->
     exists k, G m reg regs = Some k /\ m <= length k /\
       forall i, i < m -> nth i k false = v (nth i reg 0%Z) (map (fun r => nth i r 0%Z) regs)) ->
  exists k, test_fixed G x more = Some k /\ bm_clean n k /\
    forall i a bs, i < n -> t_get x i = Some a -> elements_at i more bs -> bm_get n k i = v a bs.
Proof.
  intros HT Hx Hm Lx Lm HG. destruct (fixed_facts I ty n x HT Hx) as (Hd & Hs & Hok & Hl & Hne).
  pose proof (fixed_other I ty n x more Hx Hm) as Ho.
  pose proof (chunks_lanes f (length more) x more eq_refl Hok Ho Lx Lm) as HC.
  unfold test_fixed. rewrite tests_compile; cycle 1.
  { eapply chunks_impl; [|exact HC]. intros m reg regs [E K]. destruct (HG m reg regs E K) as (r & Er & _). congruence. }
  eexists. split; [reflexivity|].
  rewrite (test_rel _ (ideal v)); cycle 1.
  { eapply chunks_impl; [|exact HC]. intros m reg regs [E K]. destruct (HG m reg regs E K) as (k & Er & Hk & H). rewrite Er.
    apply ideal_first; auto. }
  exact (c07_test I ty n v (ideal v) x more HT (ideal_lanewise v) Hx Hm).
Qed.

Lemma fmt_elem ty f : elem_format ty f -> fmt_ok f.
Proof. intros [[_ ->]|[_ ->]]; [apply ok32|apply ok64]. Qed.

Lemma pred1_fixed_ok std p t f I ty n x :
  elem_format ty f -> fixed_size_type I ty n -> (forall m, target_ok (t m) /\ dq_ok (t m)) -> std_pred1_ok f std ->
  is_fixed I ty n x -> all_lanes f x ->
  exists k, pred1_fixed std p t f x = Some k /\ bm_clean n k /\
    forall i a, i < n -> t_get x i = Some a -> bm_get n k i = pred1_value p f a.
Proof.
  intros He HT Ht Hstd Hx Lx. pose proof (fmt_elem _ _ He) as Hf.
  destruct (test_fixed_ok f I ty n (fun m reg _ => if m =? 1 then Some (map (std p) reg) else pred1_reg p (t m) f m reg)
    (fun a _ => pred1_value p f a) x []) as (k & Ek & Ck & Hk); auto.
  { intros m reg regs _ (K1 & _ & K3 & _). destruct (Nat.eqb_spec m 1) as [->|Hm].
    - eexists. split; [reflexivity|]. rewrite map_length. split; auto. intros i Hi. assert (i = 0) by lia. subst i.
      destruct reg as [|a reg]; [cbn in K1; lia|]. cbn [map nth]. inversion K3; subst. apply Hstd. auto.
    - assert (Hr : fregister f m reg) by (split; auto). destruct (Ht m) as [T1 T2].
      destruct p; cbn [pred1_reg pred1_value].
      + destruct (c33_isinf f Hf (t m) m reg Hr) as (k & E & L & H). exists k. rewrite L. auto.
      + destruct (c33_isfinite f Hf (t m) m reg Hr) as (k & E & L & H). exists k. rewrite L. auto.
      + destruct (c33_isnan f Hf (t m) m reg Hr) as (k & E & L & H). exists k. rewrite L. auto.
      + destruct (c33_isnormal f Hf (t m) m reg T1 T2 Hr) as (k & E & L & H). exists k. rewrite L. auto.
      + destruct (c33_signbit f Hf (t m) m reg Hr) as (k & E & L & H). exists k. rewrite L. auto. }
  exists k. split; auto. split; auto. intros i a Hi Ha. apply (Hk i a []); auto. reflexivity.
Qed.

Lemma pred2_fixed_ok std p t f I ty n x y :
  elem_format ty f -> fixed_size_type I ty n -> (forall m, target_ok (t m)) -> std_pred2_ok f std ->
  is_fixed I ty n x -> is_fixed I ty n y -> all_lanes f x -> all_lanes f y ->
  exists k, pred2_fixed std p t f x y = Some k /\ bm_clean n k /\
    forall i a b, i < n -> t_get x i = Some a -> t_get y i = Some b -> bm_get n k i = pred2_value p f a b.
Proof.
  intros He HT Ht Hstd Hx Hy Lx Ly. pose proof (fmt_elem _ _ He) as Hf.
  destruct (test_fixed_ok f I ty n (fun m reg regs => if m =? 1 then Some (map (fun q => std p (fst q) (snd q)) (combine reg (nth 0 regs [])))
                                else pred2_reg p (t m) f m reg (nth 0 regs []))
    (fun a bs => pred2_value p f a (nth 0 bs 0%Z)) x [y]) as (k & Ek & Ck & Hk); auto.
  { intros m reg regs Hl (K1 & K2 & K3 & K4). destruct regs as [|s [|]]; try discriminate. cbn [nth map].
    inversion K2 as [|? ? E2 _]; subst. inversion K4 as [|? ? K4' _]; subst.
    destruct (Nat.eqb_spec m 1) as [->|Hm].
    - eexists. split; [reflexivity|]. rewrite map_length, combine_length. split; [lia|]. intros i Hi. assert (i = 0) by lia. subst i.
      destruct reg as [|a reg]; [cbn in K1; lia|]. destruct s as [|b s]; [discriminate|].
      cbn [combine map nth fst snd]. inversion K3; subst. inversion K4'; subst. apply Hstd; auto.
    - assert (Hr : fregister f m reg) by (split; auto). assert (Hr2 : fregister f m s) by (split; auto; lia).
      destruct p; cbn [pred2_reg pred2_value].
      + destruct (c32_ord f Hf (t m) r m reg s (Ht m) Hr Hr2) as (k & E & L & H). exists k. rewrite L.
        auto.
      + destruct (c32_islessgreater f Hf (t m) m reg s (Ht m) Hr Hr2) as (k & E & L & H). exists k. rewrite L. auto.
      + destruct (c32_isunordered f Hf (t m) m reg s Hr Hr2) as (k & E & L & H). exists k. rewrite L. auto. }
  exists k. split; auto. split; auto. intros i a b Hi Ha Hb. apply (Hk i a [b]); auto. unfold elements_at. cbn [map]. rewrite Hb. auto.
Qed.
