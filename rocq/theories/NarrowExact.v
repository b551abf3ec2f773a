From Coq Require Import ZArith List Bool Lia.
From Verif Require Import X86Lanes FloatSpec FloatRoundSpec FloatBits FloatArith FloatProofs FloatArithProofs ScalarSpec Scalar ScalarProofs NarrowSpec Narrow NarrowProofs.
Open Scope Z_scope.

(* the odd part of a number is at most the number *)
Lemma odd_part o d i j : 0 <= i -> 0 <= j -> 0 < d -> Z.odd o = true -> 0 < o -> o * 2 ^ j = d * 2 ^ i -> o <= d.
Proof.
  intros Hi Hj Hd Ho Hp E. destruct (Z_le_gt_dec i j) as [L|G].
  - replace j with (j - i + i) in E by lia. rewrite Z.pow_add_r in E by lia.
    assert (P : 0 < 2 ^ i) by (apply Z.pow_pos_nonneg; lia).
    assert (Q : 1 <= 2 ^ (j - i)) by (pose proof (Z.pow_pos_nonneg 2 (j - i)); lia).
    assert (o * 2 ^ (j - i) = d) by (apply (Z.mul_reg_r _ _ (2 ^ i)); lia). nia.
  - replace i with (i - j - 1 + 1 + j) in E by lia. rewrite !Z.pow_add_r in E by lia.
    assert (P : 0 < 2 ^ j) by (apply Z.pow_pos_nonneg; lia).
    assert (E2 : o = 2 * (d * 2 ^ (i - j - 1))).
    { apply (Z.mul_reg_r _ _ (2 ^ j)); [lia|]. rewrite E. change (2 ^ 1) with 2. ring. }
    rewrite E2, Z.odd_mul in Ho. discriminate.
Qed.

(* a number with an odd part of more than fp bits is not one of the format *)
Lemma not_repr l t o j k w : long_double_fmt l -> 0 <= j -> 0 <= k -> Z.odd o = true -> 2 ^ fp (format l t) <= o ->
  valid l (AFloat t) w -> ~ same_number (Fraction (o * 2 ^ j) k) (number_of l (AFloat t) w).
Proof.
  intros Hl Hj Hk Ho Hb Hw. pose proof (format_ok l t Hl) as Hf. cbn [number_of valid] in *.
  set (f := format l t) in *.
  assert (P0 : 0 < 2 ^ fp f) by (apply Z.pow_pos_nonneg; destruct Hf; lia).
  destruct (decode f w) as [|s|s m] eqn:D; simpl; auto. intros E.
  destruct (decode_fin f Hf w s m Hw D) as (a & Ha & -> & _).
  destruct (mag_shape f Hf a ltac:(lia)) as (d & e & He & Hd & Em & _).
  pose proof (unit_nonneg f Hf) as Hu.
  assert (P1 : 0 < 2 ^ j) by (apply Z.pow_pos_nonneg; lia).
  assert (P2 : 0 < 2 ^ k) by (apply Z.pow_pos_nonneg; lia).
  assert (P3 : 0 < 2 ^ unit f) by (apply Z.pow_pos_nonneg; lia).
  assert (P4 : 0 < 2 ^ e) by (apply Z.pow_pos_nonneg; lia).
  rewrite Em in E. assert (P5 : 0 < o * 2 ^ j * 2 ^ unit f) by (repeat apply Z.mul_pos_pos; lia).
  destruct s; simpl in E; [assert (0 <= d * 2 ^ e) by nia; nia|].
  assert (Hd0 : 0 < d) by (destruct (Z.eq_dec d 0) as [->|]; lia).
  assert (o <= d).
  { apply (odd_part o d (e + k) (j + unit f)); auto; try lia.
    rewrite !Z.pow_add_r by lia. lia. }
  assert (2 * 2 ^ mb f = 2 ^ fp f).
  { unfold mb. rewrite <- Z.pow_succ_r by (destruct Hf; lia). f_equal. lia. }
  lia.
Qed.

(* one half *)
Lemma half_decode f : fmt_ok f -> pattern f (one_bits f - 2 ^ mb f) /\ decode f (one_bits f - 2 ^ mb f) = DFin false (2 ^ (unit f - 1)).
Proof.
  intros Hf. pose proof (inf_lt f Hf). assert (P : 0 < 2 ^ mb f) by (apply Z.pow_pos_nonneg; [lia|]; pose proof (mb_nonneg f Hf); lia).
  assert (Hb : 4 <= bias f) by (destruct Hf as (? & ? & ?); lia).
  assert (E : one_bits f - 2 ^ mb f = (bias f - 1) * 2 ^ mb f + 0) by (unfold one_bits; ring).
  assert (R : 0 <= one_bits f - 2 ^ mb f < inf_bits f).
  { unfold one_bits, inf_bits, bias in *.
    replace (2 ^ eb f) with (2 * 2 ^ (eb f - 1)); [nia|].
    rewrite <- Z.pow_succ_r by (destruct Hf as (? & ? & ?); lia). f_equal. lia. }
  change (one_bits f - 2 ^ mb f) with (with_sign f false (one_bits f - 2 ^ mb f)).
  split; [apply with_sign_pattern; auto; lia|]. rewrite decode_with_sign by auto.
  f_equal. rewrite E. rewrite (mag_qr f Hf) by lia. rewrite Z.add_0_r.
  rewrite <- Z.pow_add_r by (pose proof (mb_nonneg f Hf); lia). f_equal. unfold unit. lia.
Qed.

Lemma half_not_int l s t : long_double_fmt l -> t = ABool \/ (exists i, t = AInt i) ->
  exists v, valid l (AFloat s) v /\ ~ representable l (AFloat s) v t.
Proof.
  intros Hl Ht. pose proof (format_ok l s Hl) as Hf. destruct (half_decode _ Hf) as [Hp Hd].
  exists (one_bits (format l s) - 2 ^ mb (format l s)). split; [exact Hp|].
  intros (w & _ & E). cbn [number_of] in E. rewrite Hd in E.
  assert (E2 : 2 ^ (unit (format l s) - 1) * 2 ^ 0 = w * 2 ^ unit (format l s)).
  { destruct Ht as [->|(i & ->)]; exact E. }
  assert (Hu : 4 <= unit (format l s)).
  { unfold unit. pose proof (mb_nonneg _ Hf). destruct Hf as (? & ? & ?). lia. }
  assert (Hs : 2 ^ unit (format l s) = 2 * 2 ^ (unit (format l s) - 1)).
  { rewrite <- Z.pow_succ_r by lia. f_equal. lia. }
  assert (P : 0 < 2 ^ (unit (format l s) - 1)) by (apply Z.pow_pos_nonneg; lia).
  rewrite Hs in E2. change (2 ^ 0) with 1 in E2.
  assert (1 = 2 * w) by nia. lia.
Qed.

Lemma one_plus_decode f : fmt_ok f -> pattern f (one_bits f + 1) /\
  decode f (one_bits f + 1) = DFin false ((2 ^ mb f + 1) * 2 ^ (bias f - 1)).
Proof.
  intros Hf. pose proof (inf_lt f Hf). pose proof (mb_nonneg f Hf) as Hm.
  assert (P : 2 <= 2 ^ mb f) by (replace (mb f) with (1 + (mb f - 1)) by lia; rewrite Z.pow_add_r by lia; change (2^1) with 2;
    assert (0 < 2 ^ (mb f - 1)) by (apply Z.pow_pos_nonneg; lia); lia).
  assert (Hb : 4 <= bias f) by (destruct Hf as (? & ? & ?); lia).
  assert (R : 0 <= one_bits f + 1 < inf_bits f).
  { unfold one_bits, inf_bits, bias in *.
    replace (2 ^ eb f) with (2 * 2 ^ (eb f - 1)); [nia|].
    rewrite <- Z.pow_succ_r by (destruct Hf as (? & ? & ?); lia). f_equal. lia. }
  change (one_bits f + 1) with (with_sign f false (one_bits f + 1)).
  split; [apply with_sign_pattern; auto; lia|]. rewrite decode_with_sign by auto.
  f_equal. unfold one_bits. rewrite (mag_qr f Hf) by lia. auto.
Qed.

(* the largest finite number *)
Lemma finite_max_decode f s : fmt_ok f -> pattern f (with_sign f s (finite_max_bits f)) /\
  decode f (with_sign f s (finite_max_bits f)) = DFin s (mag f (finite_max_bits f)) /\
  (forall a, 0 <= a < inf_bits f -> mag f a <= mag f (finite_max_bits f)) /\ 0 <= finite_max_bits f < inf_bits f.
Proof.
  intros Hf. pose proof (inf_lt f Hf). pose proof (inf_pos f Hf).
  assert (E : finite_max_bits f = inf_bits f - 1) by (unfold finite_max_bits, inf_bits; ring).
  split; [apply with_sign_pattern; auto; lia|]. split; [apply decode_with_sign; auto; lia|].
  split; [|lia]. intros a Ha. apply mag_le; auto; lia.
Qed.

Lemma included_refl f : included f f. Proof. split; lia. Qed.

Lemma mag_nonneg f a : fmt_ok f -> 0 <= a -> 0 <= mag f a.
Proof.
  intros Hf Ha. destruct (mag_shape f Hf a Ha) as (d & e & He & Hd & Em & _).
  rewrite Em. apply Z.mul_nonneg_nonneg; [lia|apply Z.pow_nonneg; lia].
Qed.

(* no integer of at most fp digits is beyond the largest finite number *)
Lemma int_float_exact l a t : long_double_fmt l -> std_type a ->
  digits l (AInt a) <= digits l (AFloat t) -> narrowing l (AInt a) (AFloat t) = false.
Proof.
  intros Hl Ha Hd. pose proof (format_ok l t Hl) as Hf. unfold narrowing. cbn [aty_eqb is_unsigned].
  apply Z.ltb_ge in Hd. rewrite Hd. apply Z.ltb_ge in Hd. rewrite andb_false_r, orb_false_r, orb_false_l.
  assert (R : forall v, has a v -> Z.abs v <= 2 ^ fp (format l t)) by (intros v Hv; apply (int_abs l a); auto).
  assert (Hmin : finite_min l (AInt a) = lowest a).
  { unfold finite_min, lowest, digits. destruct (isg a) eqn:E; auto.
    destruct (std_pow a Ha). replace (-2 * 2 ^ (iw a - 1 - 1)) with (- 2 ^ (iw a - 1)).
    - apply conv_same; auto. unfold has. rewrite E. lia.
    - pose proof (iw_pos a Ha). replace (iw a - 1) with (Z.succ (iw a - 1 - 1)) at 1 by lia.
      rewrite Z.pow_succ_r by lia. ring. }
  pose proof (range_order a Ha) as Hr.
  assert (Hmax : has a (finite_max l (AInt a))) by (unfold finite_max; apply conv_wraps; auto).
  assert (Hmin' : has a (finite_min l (AInt a))) by (rewrite Hmin; apply has_range; lia).
  unfold c_less. cbn [common cast].
  destruct (finite_max_decode (format l t) false Hf) as (Pm & Dm & Lm & _).
  destruct (finite_max_decode (format l t) true Hf) as (Pn & Dn & _ & _).
  destruct (fof_int_exact _ Hf ToNearest _ (R _ Hmax)) as [_ D1].
  destruct (fof_int_exact _ Hf ToNearest _ (R _ Hmin')) as [_ D2].
  destruct (fconv_included _ _ Hf Hf ToNearest _ (included_refl _) Pm) as [_ D3].
  destruct (fconv_included _ _ Hf Hf ToNearest _ (included_refl _) Pn) as [_ D4].
  rewrite Dm in D3. rewrite Dn in D4. rewrite Z.sub_diag, Z.mul_1_r in D3, D4.
  assert (Hb : forall v, has a v -> Z.abs v * one (format l t) <= mag (format l t) (finite_max_bits (format l t))).
  { intros v Hv. specialize (R v Hv).
    destruct (repr_int (format l t) Hf (Z.abs v)) as (x & Hx & Ex).
    - rewrite Z.abs_eq by lia. replace (2 * 2 ^ mb (format l t)) with (2 ^ fp (format l t)); [lia|].
      unfold mb. rewrite <- Z.pow_succ_r by (destruct Hf; lia). f_equal. lia.
    - pose proof (one_pos (format l t) Hf). rewrite Z.abs_eq in Ex by nia. rewrite <- Ex. auto. }
  pose proof (Hb _ Hmax) as B1. pose proof (Hb _ Hmin') as B2.
  pose proof (one_pos (format l t) Hf) as P1.
  set (M := mag (format l t) (finite_max_bits (format l t))) in *.
  cbn [finite_max finite_min] in D1, D2 |- *.
  change (finite_max_bits (format l t)) with (with_sign (format l t) false (finite_max_bits (format l t))) at 1.
  rewrite D3. rewrite D1.
  change (with_sign (format l t) true (finite_max_bits (format l t))) with (with_sign (format l t) true (finite_max_bits (format l t))).
  rewrite D4, D2. unfold less, ieee_compare.
  cbn [finite_max finite_min] in B1, B2.
  match goal with |- context [num ?s (Z.abs ?v * ?o)] => set (x := Z.abs v * o) in *; set (s1 := s) end.
  match goal with |- context [num ?s (Z.abs ?v * ?o)] => set (y := Z.abs v * o) in *; set (s2 := s) end.
  assert (0 <= x) by (unfold x; nia). assert (0 <= y) by (unfold y; nia).
  apply orb_false_iff. split.
  - cbn [num]. destruct (Z.compare_spec M (num s1 x)); auto. destruct s1; cbn [num] in *; lia.
  - destruct (Z.compare_spec (num s2 y) (num true M)); auto. destruct s2; cbn [num] in *; lia.
Qed.

Lemma float_float_exact l s t : long_double_fmt l ->
  digits l (AFloat s) <= digits l (AFloat t) -> narrowing l (AFloat s) (AFloat t) = false.
Proof.
  intros Hl Hd. cbn [digits] in Hd.
  assert (Hi : included (format l s) (format l t)) by (apply formats_included; auto).
  unfold narrowing. destruct (aty_eqb (AFloat s) (AFloat t)) eqn:Eq; auto.
  cbn [is_unsigned digits]. apply Z.ltb_ge in Hd. rewrite Hd. apply Z.ltb_ge in Hd.
  rewrite andb_false_r, orb_false_r, orb_false_l.
  pose proof (format_ok l s Hl) as Hf. pose proof (format_ok l t Hl) as Hg.
  (* the common type has the format of t *)
  assert (C : exists c, common (AFloat s) (AFloat t) = AFloat c /\ common (AFloat t) (AFloat s) = AFloat c /\
              format l c = format l t).
  { destruct s, t; cbn [common frank Z.leb Z.compare]; try discriminate;
      (eexists; split; [reflexivity|split; [reflexivity|]]); auto;
      destruct Hl as [->|[->| ->]]; auto; cbn in Hd; lia. }
  destruct C as (c & C1 & C2 & C3).
  unfold c_less. rewrite C1, C2. cbn [cast finite_max finite_min]. rewrite C3.
  destruct (finite_max_decode (format l s) false Hf) as (Ps & Ds & _ & Rs).
  destruct (finite_max_decode (format l s) true Hf) as (Ps' & Ds' & _ & _).
  destruct (finite_max_decode (format l t) false Hg) as (Pt & Dt & Lt & _).
  destruct (finite_max_decode (format l t) true Hg) as (Pt' & Dt' & _ & _).
  destruct (fconv_included _ _ Hf Hg ToNearest _ Hi Ps) as [_ D1].
  destruct (fconv_included _ _ Hf Hg ToNearest _ Hi Ps') as [_ D2].
  destruct (fconv_included _ _ Hg Hg ToNearest _ (included_refl _) Pt) as [_ D3].
  destruct (fconv_included _ _ Hg Hg ToNearest _ (included_refl _) Pt') as [_ D4].
  rewrite Ds in D1. rewrite Ds' in D2. rewrite Dt in D3. rewrite Dt' in D4.
  rewrite Z.sub_diag, Z.mul_1_r in D3, D4.
  destruct (scaled_repr _ _ Hf Hg _ Hi Rs) as (x & Hx & Ex).
  pose proof (Lt x Hx) as B. pose proof (mag_nonneg _ x Hg ltac:(lia)) as N.
  assert (P : 0 < 2 ^ (unit (format l t) - unit (format l s)))
    by (apply Z.pow_pos_nonneg; [lia|]; destruct Hi; unfold unit; lia).
  pose proof (mag_nonneg _ (finite_max_bits (format l s)) Hf ltac:(lia)) as N2.
  rewrite Z.abs_eq in Ex by nia. rewrite Ex in B.
  cbn [with_sign] in D1, D3.
  rewrite D1, D2, D3, D4. unfold less, ieee_compare. cbn [num].
  apply orb_false_iff. split.
  - destruct (Z.compare_spec (mag (format l t) (finite_max_bits (format l t)))
      (mag (format l s) (finite_max_bits (format l s)) * 2 ^ (unit (format l t) - unit (format l s)))); auto. lia.
  - destruct (Z.compare_spec
      (- (mag (format l s) (finite_max_bits (format l s)) * 2 ^ (unit (format l t) - unit (format l s))))
      (- mag (format l t) (finite_max_bits (format l t)))); auto. lia.
Qed.

Lemma odd_pow_succ k : 1 <= k -> Z.odd (2 ^ k + 1) = true.
Proof.
  intros H. rewrite Z.odd_add. replace k with (Z.succ (k - 1)) by lia. rewrite Z.pow_succ_r by lia.
  rewrite Z.odd_mul. auto.
Qed.

Lemma exact l from to : long_double_fmt l -> aty_ok from -> aty_ok to -> from <> ABool ->
  narrowing l from to = true -> exists v, valid l from v /\ ~ representable l from v to.
Proof.
  intros Hl Hfr Hto Hnb Hn. destruct from as [|a|s]; [congruence| |]; cbn [aty_ok] in *.
  - destruct to as [|b|t]; cbn [aty_ok] in *.
    + exists 2. split.
      * cbn [valid]. apply has_range. pose proof (iw_pos a Hfr). unfold lowest, highest.
        assert (2 ^ 7 <= 2 ^ (iw a - 1)) by (apply Z.pow_le_mono_r; lia).
        assert (2 ^ 7 <= 2 ^ iw a) by (apply Z.pow_le_mono_r; lia). destruct (isg a); lia.
      * intros (w & Hw & E). cbn in Hw, E. lia.
    + destruct (int_int_exact l a b Hfr Hto Hn) as (v & H1 & H2). exists v. split; auto.
      intros (w & Hw & E). cbn [valid number_of same_number] in *. apply H2.
      replace v with w by (rewrite !Z.pow_0_r in E; lia). auto.
    + destruct (Z_le_gt_dec (digits l (AInt a)) (digits l (AFloat t))) as [L|G].
      { rewrite int_float_exact in Hn by auto. discriminate. }
      pose proof (format_ok l t Hl) as Hf.
      assert (Hp : 2 <= fp (format l t)) by (destruct Hf; auto).
      exists (2 ^ fp (format l t) + 1). split.
      * cbn [valid digits] in *. apply has_range. unfold lowest, highest.
        assert (2 <= 2 ^ fp (format l t)) by (apply Z.le_trans with (2 ^ 1); [lia|apply Z.pow_le_mono_r; lia]).
        pose proof (iw_pos a Hfr).
        destruct (isg a).
        -- assert (2 ^ Z.succ (fp (format l t)) <= 2 ^ (iw a - 1)) by (apply Z.pow_le_mono_r; lia).
           rewrite Z.pow_succ_r in * by lia. lia.
        -- assert (2 ^ Z.succ (fp (format l t)) <= 2 ^ iw a) by (apply Z.pow_le_mono_r; lia).
           rewrite Z.pow_succ_r in * by lia. lia.
      * intros (w & Hw & E).
        apply (not_repr l t (2 ^ fp (format l t) + 1) 0 0 w Hl); try lia; auto.
        { apply odd_pow_succ. lia. }
        rewrite Z.pow_0_r, Z.mul_1_r. exact E.
  - destruct to as [|b|t].
    + apply half_not_int; auto.
    + apply half_not_int; eauto.
    + destruct (Z_le_gt_dec (digits l (AFloat s)) (digits l (AFloat t))) as [L|G].
      { rewrite float_float_exact in Hn by auto. discriminate. }
      pose proof (format_ok l s Hl) as Hf. cbn [digits] in G.
      destruct (one_plus_decode _ Hf) as [Hp Hd]. pose proof (unit_nonneg _ Hf).
      exists (one_bits (format l s) + 1). split; [exact Hp|].
      intros (w & Hw & E).
      apply (not_repr l t (2 ^ mb (format l s) + 1) (bias (format l s) - 1) (unit (format l s)) w Hl); auto.
      * destruct Hf as (? & ? & ?). lia.
      * apply odd_pow_succ. apply mb_nonneg. auto.
      * assert (2 ^ fp (format l t) <= 2 ^ mb (format l s)) by (apply Z.pow_le_mono_r; [lia|unfold mb; lia]). lia.
      * assert (Ex : number_of l (AFloat s) (one_bits (format l s) + 1)
          = Fraction ((2 ^ mb (format l s) + 1) * 2 ^ (bias (format l s) - 1)) (unit (format l s)))
          by (cbn [number_of]; rewrite Hd; reflexivity).
        rewrite Ex in E. exact E.
Qed.
