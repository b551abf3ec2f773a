(* Lemmas behind PropsArith.v. *)
From Coq Require Import ZArith List Bool Lia Psatz Reals.
From Verif Require Import Prelude X86Lanes FloatSpec FloatRoundSpec FloatBits FloatArith FloatProofs FloatArithProofs FloatRoundProofs FloatRoundTop FloatFrexp Narrow NarrowExact Hypot SinCos LdexpSpec LdexpProofs LdexpTop ArithOps ArithSpec ArithProofs.
Import ListNotations.
Local Open Scope Z_scope.

Lemma scale_cut v u v' u' : 0 < u -> 0 < u' -> v * u' = v' * u -> same_cut v u v' u'.
Proof.
  intros Hu Hu' E t.
  assert (A : 2 * v * u' = 2 * v' * u) by (rewrite <- !Z.mul_assoc, E; reflexivity).
  assert (B : t * u * u' = t * u' * u) by ring.
  split.
  - rewrite (Z.mul_le_mono_pos_r (2 * v) (t * u) u') by auto. rewrite (Z.mul_le_mono_pos_r (2 * v') (t * u') u) by auto. lia.
  - rewrite (Z.mul_le_mono_pos_r (t * u) (2 * v) u') by auto. rewrite (Z.mul_le_mono_pos_r (t * u') (2 * v') u) by auto. lia.
Qed.
Lemma fconv_ok f g md x s m : fmt_ok f -> fmt_ok g -> pattern f x -> decode f x = DFin s m ->
  correctly_rounded g md s (m * one g) (one f) (decode g (fconv f g md x)).
Proof.
  intros Hf Hg Px D. pose proof (fin_nonneg f Hf x s m Px D) as Hm. unfold fconv. rewrite D.
  pose proof (unit_ge f Hf). pose proof (unit_ge g Hg).
  assert (0 < one f) by (apply Z.pow_pos_nonneg; lia). assert (0 < one g) by (apply Z.pow_pos_nonneg; lia).
  destruct (Z.leb_spec (unit f) (unit g)) as [L|L].
  - assert (P : 0 < 2 ^ (unit g - unit f)) by (apply Z.pow_pos_nonneg; lia).
    apply (rounded_cut g md s (m * 2 ^ (unit g - unit f)) 1); auto; [lia| |].
    + apply scale_cut; auto; [lia|]. unfold one. rewrite <- Z.mul_assoc, <- Z.pow_add_r by lia. replace (unit g - unit f + unit f) with (unit g) by lia. ring.
    + replace (num s m * 2 ^ (unit g - unit f)) with (num s (m * 2 ^ (unit g - unit f))) by (destruct s; cbn [num]; ring).
      change 1 with (2 ^ 0). apply (fround_correct g Hg); [lia|nia].
  - assert (P : 0 < 2 ^ (unit f - unit g)) by (apply Z.pow_pos_nonneg; lia).
    apply (rounded_cut g md s m (2 ^ (unit f - unit g))); auto.
    + apply scale_cut; auto. unfold one. rewrite <- Z.mul_assoc, <- Z.pow_add_r by lia. do 2 f_equal. lia.
    + apply (fround_correct g Hg); lia.
Qed.

(* patterns *)
Lemma fdiv_pattern f md x y : fmt_ok f -> pattern f x -> pattern f y -> pattern f (fdiv f md x y).
Proof.
  intros Hf Px Py. pose proof (inf_lt f Hf). pose proof (inf_pos f Hf).
  unfold fdiv. destruct (decode f x) as [|a|a m] eqn:Dx, (decode f y) as [|b|b n] eqn:Dy; try apply (pattern_nan f Hf); try (apply (with_sign_pattern f Hf); lia).
  destruct (n =? 0); [destruct (m =? 0); [apply (pattern_nan f Hf)|apply (with_sign_pattern f Hf); lia]|].
  apply (fround_pattern f Hf). lia.
Qed.
Lemma fsqrt_pattern f md x : fmt_ok f -> pattern f x -> pattern f (fsqrt f md x).
Proof.
  intros Hf Px. pose proof (inf_lt f Hf). pose proof (inf_pos f Hf).
  assert (R : forall g k, 0 <= k -> 0 <= g -> pattern f (round_bits f md false g k)).
  { intros g k Hk Hg. pose proof (round_bits_range f Hf md false k g Hk Hg). unfold pattern. pose proof (pow_fw f Hf). lia. }
  unfold fsqrt. destruct (decode f x) as [|s|s m] eqn:D; [apply (pattern_nan f Hf)| |].
  - destruct s; [apply (pattern_nan f Hf)|apply (pattern_inf f Hf)].
  - destruct (m =? 0); [apply (with_sign_pattern f Hf); lia|]. destruct s; [apply (pattern_nan f Hf)|]. cbv zeta.
    pose proof (Z.sqrt_nonneg (4 * (m * 2 ^ unit f))). destruct (_ =? _); apply R; lia.
Qed.
Lemma map2_get {A B C} (g : A -> B -> C) xs ys i x y : nth_error xs i = Some x -> nth_error ys i = Some y -> nth_error (map2 g xs ys) i = Some (g x y).
Proof.
  revert ys i. induction xs as [|a xs IH]; intros [|b ys] [|i]; cbn; intros E F; try discriminate; auto.
  injection E as ->. injection F as ->. reflexivity.
Qed.
Lemma operators_core f md xs ys : real_fmt f -> Forall (pattern f) xs -> Forall (pattern f) ys ->
  forall i x y, nth_error xs i = Some x -> nth_error ys i = Some y -> exists a b c,
    nth_error (plus_reg f md xs ys) i = Some a /\ nth_error (minus_reg f md xs ys) i = Some b /\ nth_error (multiplies_reg f md xs ys) i = Some c /\
    pattern f a /\ pattern f b /\ pattern f c /\
    sum_result f md (decode f x) (decode f y) (decode f a) /\ sum_result f md (decode f x) (neg (decode f y)) (decode f b) /\
    product_result f md (decode f x) (decode f y) (decode f c).
Proof.
  intros Hr HX HY i x y Ex Ey. pose proof (real_ok f Hr) as Hf. rewrite Forall_forall in HX, HY.
  pose proof (HX x (nth_error_In _ _ Ex)) as Px. pose proof (HY y (nth_error_In _ _ Ey)) as Py.
  exists (fadd f md x y), (fsub f md x y), (fmul f md x y). unfold plus_reg, minus_reg, multiplies_reg.
  rewrite !(map2_get _ xs ys i x y Ex Ey). repeat (split; [reflexivity|]).
  split; [apply fadd_pattern; auto|]. split; [unfold fsub; apply fadd_pattern; auto; apply fneg_pattern; auto|]. split; [apply fmul_pattern; auto|].
  split; [apply fadd_ok; auto|]. split; [apply fsub_ok; auto|apply fmul_ok; auto].
Qed.
Lemma sqrt_core f md xs : fmt_ok f -> Forall (pattern f) xs ->
  forall i x, nth_error xs i = Some x -> exists z, nth_error (sqrt_reg f md xs) i = Some z /\ pattern f z /\ sqrt_result f md (decode f x) (decode f z).
Proof.
  intros Hf HX i x Ex. rewrite Forall_forall in HX. pose proof (HX x (nth_error_In _ _ Ex)) as Px.
  exists (fsqrt f md x). split; [apply map_nth_error; exact Ex|]. split; [apply fsqrt_pattern; auto|apply fsqrt_ok; auto].
Qed.

(* division *)
Lemma ones_sub k : 2 ^ k - 1 = Z.ones k.
Proof. rewrite Z.ones_equiv, Z.sub_1_r. reflexivity. Qed.
Lemma padding_lane b f n i y : fmt_ok f -> pattern f y ->
  (if b : bool then padding_blend_lane f n i y else padding_one_lane f n i y) = if (i <? n)%nat then y else one_bits f.
Proof.
  intros Hf Py. destruct b.
  - unfold padding_blend_lane. rewrite ones_sub by lia. destruct (Nat.ltb_spec i n).
    + rewrite Z.ones_spec_low by lia. reflexivity.
    + rewrite Z.ones_spec_high by lia. reflexivity.
  - unfold padding_one_lane, implicit_lane. destruct (Nat.ltb_spec i n).
    + rewrite ones_sub.
      assert (W : 0 <= fw f) by (pose proof (pow_fw f Hf); destruct (Z.le_gt_cases 0 (fw f)); auto; unfold pattern in Py; rewrite (Z.pow_neg_r 2 (fw f)) in Py by lia; lia).
      rewrite Z.land_ones by auto. rewrite Z.mod_small by exact Py.
      assert (O : 0 <= one_bits f < 2 ^ fw f).
      { pose proof (inf_lt f Hf). pose proof (pow_fw f Hf). destruct (one_val f Hf) as (_ & _ & ?). lia. }
      rewrite Z.ldiff_ones_r by auto. rewrite Z.shiftr_div_pow2 by auto. rewrite Z.div_small by lia. rewrite Z.shiftl_0_l, Z.lor_0_r. reflexivity.
    + rewrite Z.land_0_r, Z.ldiff_0_r. reflexivity.
Qed.
Lemma decode_one f : fmt_ok f -> decode f (one_bits f) = DFin false (one f).
Proof.
  intros Hf. destruct (one_val f Hf) as (P & V & B). unfold fval in V. rewrite (decode_with_sign f Hf false (one_bits f) B : decode f (one_bits f) = _) in *.
  injection V as V. cbn [num] in V. rewrite V. reflexivity.
Qed.
Lemma divisor_get b f n ys i y : fmt_ok f -> (n <= length ys)%nat -> Forall (pattern f) ys -> nth_error ys i = Some y ->
  nth_error (divisor_reg b f n ys) i = Some (if (i <? n)%nat then y else one_bits f).
Proof.
  intros Hf Hn HY Ey. assert (Li : (i < length ys)%nat) by (apply nth_error_Some; congruence).
  unfold divisor_reg, make_padding_one. destruct (Nat.eqb_spec n (length ys)) as [->|N].
  - rewrite Ey. destruct (Nat.ltb_spec i (length ys)); [reflexivity|lia].
  - assert (Es : nth_error (seq 0 (length ys)) i = Some i) by (rewrite (nth_error_nth' _ 0%nat) by (rewrite seq_length; lia); rewrite seq_nth by lia; reflexivity).
    rewrite (map2_get _ _ _ i i y Es Ey). f_equal. rewrite <- (padding_lane b f n i y Hf); [destruct b; reflexivity|].
    rewrite Forall_forall in HY. apply HY. eapply nth_error_In; eauto.
Qed.
Lemma divide_one f md x : fmt_ok f -> pattern f x -> decode f (fdiv f md x (one_bits f)) = decode f x.
Proof.
  intros Hf Px. destruct (one_val f Hf) as (P1 & _ & _). pose proof (fdiv_ok f Hf md x (one_bits f) Px P1) as Q. rewrite (decode_one f Hf) in Q.
  pose proof (unit_ge f Hf). assert (O : 0 < one f) by (apply Z.pow_pos_nonneg; lia).
  unfold quotient_result in Q. destruct (decode f x) as [|a|a m] eqn:D; auto.
  - rewrite Q, xorb_false_r. reflexivity.
  - destruct (Z.eqb_spec (one f) 0); [lia|]. rewrite xorb_false_r in Q. apply (rounded_exact f md a m (one f) _ Hf O) in Q; auto.
    apply (datum_number f x a m Hf Px D).
Qed.
Lemma divides_core b f md n xs ys : fmt_ok f -> Forall (pattern f) xs -> Forall (pattern f) ys -> (n <= length ys)%nat ->
  forall i x y, nth_error xs i = Some x -> nth_error ys i = Some y -> exists z d,
    nth_error (divides_reg b f md n xs ys) i = Some z /\ pattern f z /\ nth_error (divisor_reg b f n ys) i = Some d /\
    ((i < n)%nat -> d = y /\ quotient_result f md (decode f x) (decode f y) (decode f z)) /\
    ((n <= i)%nat -> decode f z = decode f x /\ ~ divides_by_zero (decode f x) (decode f d)).
Proof.
  intros Hf HX HY Hn i x y Ex Ey. pose proof (divisor_get b f n ys i y Hf Hn HY Ey) as Ed. destruct (one_val f Hf) as (P1 & _ & _).
  rewrite Forall_forall in HX, HY. pose proof (HX x (nth_error_In _ _ Ex)) as Px. pose proof (HY y (nth_error_In _ _ Ey)) as Py.
  set (d := if (i <? n)%nat then y else one_bits f) in *. assert (Pd : pattern f d) by (unfold d; destruct (i <? n)%nat; auto).
  exists (fdiv f md x d), d. split; [apply map2_get; auto|]. split; [apply fdiv_pattern; auto|]. split; [exact Ed|]. unfold d. destruct (Nat.ltb_spec i n).
  - split; [|lia]. intros _. split; [reflexivity|]. apply fdiv_ok; auto.
  - split; [lia|]. intros _. split; [apply divide_one; auto|]. rewrite (decode_one f Hf). unfold divides_by_zero.
    destruct (decode f x); auto. intros [_ E]. pose proof (unit_ge f Hf). pose proof (Z.pow_pos_nonneg 2 (unit f) ltac:(lia) ltac:(lia)). unfold one in E. lia.
Qed.
