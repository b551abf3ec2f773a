(* The scaled arguments of hypot. *)
From Coq Require Import ZArith List Bool Lia Psatz.
From Verif Require Import Prelude X86Lanes FloatSpec FloatRoundSpec FloatBits FloatArith FloatRound FloatProofs FloatArithProofs
  FloatRoundProofs FloatFrexp HypotSpec Hypot HypotArith HypotRound.
Import ListNotations.
Open Scope Z_scope.

Section Format.
  Variable f : fmt.
  Hypothesis Hf : fmt_ok f.
  Hypothesis Hp : 16 <= fp f.
  Hypothesis Hb : 4 * fp f + 8 <= bias f.
  Let M := 2 ^ mb f.
  Let U := 2 ^ unit f.
  Let B0 := 2 ^ (bias f - 1).
  Let Max := mag f (finite_max_bits f).
  Local Notation fin := (fin f).

  Lemma M_big : 2 ^ 15 <= M.
  Proof. unfold M, mb. apply Z.pow_le_mono_r; lia. Qed.
  Lemma U_val : U = M * B0.
  Proof. unfold U, M, B0, unit. rewrite <- Z.pow_add_r by (pose proof (mb_pos f Hf); lia). f_equal. lia. Qed.
  Lemma B0_big : 2048 * (M * M * (M * M)) <= B0.
  Proof.
    unfold M, B0. change 2048 with (2 ^ 11). pose proof (mb_pos f Hf). rewrite <- !Z.pow_add_r by lia.
    apply Z.pow_le_mono_r; unfold mb; lia.
  Qed.
  Lemma eb_bias : 2 ^ eb f = 2 * bias f + 2. Proof. rewrite (pow_bias f Hf). lia. Qed.
  Lemma Max_big : 2 * U * B0 <= Max.
  Proof.
    unfold Max. rewrite (max_num_val f Hf). unfold max_num. rewrite eb_bias. pose proof M_big.
    assert (E1 : 2 ^ (2 * bias f + 2 - 3) = 2 * (B0 * B0)).
    { replace (2 * bias f + 2 - 3) with (1 + ((bias f - 1) + (bias f - 1))) by lia.
      rewrite (Z.pow_add_r 2 1) by lia. rewrite Z.pow_add_r by lia. reflexivity. }
    assert (E2 : 2 ^ fp f = 2 * M).
    { replace (fp f) with (1 + mb f) by (unfold mb; lia). rewrite (Z.pow_add_r 2 1) by (unfold mb; lia). reflexivity. }
    rewrite E1, E2, U_val. pose proof B0_big. assert (0 <= B0 * B0) by nia. nia.
  Qed.

  (* landing on the exponent *)
  Lemma land_exp a : fin a -> Z.land a (inf_bits f) = a / M * M.
  Proof.
    intros [A1 A2]. pose proof (mb_pos f Hf). pose proof M_big. pose proof eb_bias as EB.
    assert (E : a = a / M * M + a mod M) by (pose proof (Z.div_mod a M); lia).
    pose proof (Z.mod_pos_bound a M ltac:(lia)). rewrite E at 1. unfold inf_bits. fold M.
    replace ((2 ^ eb f - 1) * M) with ((2 ^ eb f - 1) * M + 0) by lia. unfold M.
    rewrite land_parts by (fold M; lia). rewrite Z.land_0_r, Z.add_0_r. f_equal. fold M.
    replace (2 ^ eb f - 1) with (Z.ones (eb f)) by (rewrite Z.ones_equiv; lia).
    pose proof (eb_pos f Hf). rewrite Z.land_ones by lia. apply Z.mod_small. split; [apply Z.div_pos; lia|].
    apply Z.div_lt_upper_bound; [lia|]. unfold inf_bits in A2. fold M in A2. nia.
  Qed.
  Lemma lxor_ones E k : 0 <= k -> 0 <= E < 2 ^ k -> Z.lxor E (Z.ones k) = Z.ones k - E.
  Proof.
    intros Hk HE. assert (X : Z.ldiff E (Z.ones k) = 0).
    { rewrite Z.ldiff_ones_r by lia. rewrite Z.shiftr_div_pow2 by lia. rewrite Z.div_small by lia. apply Z.shiftl_0_l. }
    rewrite (Z.sub_nocarry_ldiff _ _ X). apply Z.bits_inj'. intros i Hi. rewrite Z.lxor_spec, Z.ldiff_spec.
    assert (T : Z.testbit (Z.ldiff E (Z.ones k)) i = false) by (rewrite X; apply Z.bits_0). rewrite Z.ldiff_spec in T.
    destruct (Z.testbit E i), (Z.testbit (Z.ones k) i); auto; discriminate.
  Qed.
  Lemma lxor_exp E : 0 <= E < 2 ^ eb f -> Z.lxor (E * M) (inf_bits f) = (2 ^ eb f - 1 - E) * M.
  Proof.
    intros HE. pose proof (mb_pos f Hf). pose proof (eb_pos f Hf). unfold inf_bits. fold M. unfold M.
    rewrite <- !Z.shiftl_mul_pow2 by lia. rewrite <- Z.shiftl_lxor. f_equal.
    replace (2 ^ eb f - 1) with (Z.ones (eb f)) by (rewrite Z.ones_equiv; lia).
    apply lxor_ones; lia.
  Qed.
  Lemma mant_mask_val : mant_mask f = M - 1.
  Proof.
    unfold mant_mask, norm_min_bits. fold M. pose proof M_big as HM. pose proof (inf_pos f Hf) as HI.
    assert (FM : fin M) by (split; [lia|unfold inf_bits; fold M; pose proof eb_bias; nia]).
    assert (F1 : fin 1) by (destruct FM; split; lia).
    assert (V : fval f (fsub f ToNearest M 1) = Some (M - 1)).
    { apply (fsub_exact f Hf).
      - apply (fin_pattern f Hf); auto.
      - unfold fval. rewrite (fin_decode f Hf) by auto. replace M with (1 * M + 0) by lia. rewrite (mag_qr f Hf) by (fold M; lia).
        fold M. change (2 ^ (1 - 1)) with 1. cbn [num]. f_equal. lia.
      - unfold fval. rewrite (fin_decode f Hf) by auto. rewrite (mag_small f 1) by (fold M; lia). reflexivity.
      - exists (M - 1). split; [destruct FM; lia|]. rewrite Z.abs_eq by lia. apply (mag_small f); fold M; lia. }
    pose proof (fsub_pattern f Hf ToNearest M 1) as Pt. unfold fval in V.
    destruct (decode f (fsub f ToNearest M 1)) as [|?|s m] eqn:D; try discriminate.
    destruct (decode_fin f Hf _ s m Pt D) as (a & Ha & -> & E). pose proof (mag_nonneg f Hf a ltac:(lia)).
    destruct s; cbn [num] in V; [exfalso; inversion V; lia|].
    rewrite E. cbn [with_sign]. apply (mag_inj f Hf); try lia. rewrite (mag_small f (M - 1)) by (fold M; lia). inversion V. auto.
  Qed.
  Lemma mant_one r E : 0 <= r < M -> Z.lor (Z.land (E * M + r) (mant_mask f)) (one_bits f) = bias f * M + r.
  Proof.
    intros Hr. rewrite mant_mask_val. pose proof (mb_pos f Hf). unfold one_bits. fold M.
    replace (M - 1) with (Z.ones (mb f)) by (rewrite Z.ones_equiv; unfold M; lia).
    rewrite Z.land_ones by lia. fold M. rewrite (Z.add_comm (E * M)), Z.mod_add, Z.mod_small by lia.
    rewrite Z.lor_comm. replace r with (0 * M + r) at 1 by lia. replace (bias f * M) with (bias f * M + 0) at 1 by lia. unfold M.
    rewrite lor_parts by (fold M; lia). rewrite Z.lor_0_r, Z.lor_0_l. auto.
  Qed.

  Variable md : rmode.
  Let P := precision f md.
  Lemma P_bounds : M <= P <= 2 * M. Proof. apply P_pos; auto. Qed.
  (* hi is scaled by s = 2^i to h1; e = 2^j undoes it *)
  Record scaling (hi e s h1 : Z) : Prop := {
    sc_e : fin e; sc_s : fin s; sc_h : fin h1;
    sc_ep : exists j, 0 <= j /\ mag f e = 2 ^ j;
    sc_sp : exists j, 0 <= j /\ mag f s = 2 ^ j;
    sc_inv : mag f s * mag f e = U * U;
    sc_eq : fmul f md hi s = h1;
    sc_val : mag f h1 * mag f e = mag f hi * U;
    sc_lo : B0 <= mag f h1;
    sc_hi : mag f h1 <= 2 * U }.

  Lemma exp_fin E : 1 <= E <= 2 * bias f -> fin (E * M) /\ mag f (E * M) = M * 2 ^ (E - 1).
  Proof.
    intros HE. pose proof M_big. split.
    - split; [nia|]. unfold inf_bits. fold M. rewrite eb_bias. nia.
    - replace (E * M) with (E * M + 0) by lia. rewrite (mag_qr f Hf) by (fold M; lia). fold M. f_equal. lia.
  Qed.
  Lemma scale_normal hi : fin hi -> M <= hi ->
    let e := Z.land hi (inf_bits f) in
    let s := fmul f md (Z.lxor e (inf_bits f)) (half_bits f) in
    let h1 := bias f * M + hi mod M in
    scaling hi e s h1.
  Proof.
    intros Hh L. cbv zeta. rewrite land_exp by auto. set (E := hi / M). pose proof M_big as HM. pose proof (bias_pos f Hf) as HB.
    pose proof (mb_pos f Hf) as Hmb. pose proof eb_bias as EB.
    assert (HE : 1 <= E <= 2 * bias f).
    { unfold E. split; [apply Z.div_le_lower_bound; lia|]. destruct Hh as [_ H2]. unfold inf_bits in H2. fold M in H2.
      assert (hi / M < 2 * bias f + 1); [|lia]. apply Z.div_lt_upper_bound; nia. }
    destruct (exp_fin E HE) as [FE VE]. rewrite lxor_exp by lia.
    destruct (exp_fin (2 ^ eb f - 1 - E) ltac:(lia)) as [FX VX].
    destruct (exp_fin (bias f - 1) ltac:(lia)) as [FH VH].
    set (r := hi mod M). pose proof (Z.mod_pos_bound hi M ltac:(lia)) as Hr. fold r in Hr.
    assert (Ehi : hi = E * M + r) by (unfold E, r; pose proof (Z.div_mod hi M); lia).
    assert (Vhi : mag f hi = (M + r) * 2 ^ (E - 1)).
    { rewrite Ehi. rewrite (mag_qr f Hf) by (fold M; lia). reflexivity. }
    assert (F1 : fin (bias f * M + r)).
    { split; [nia|]. unfold inf_bits. fold M. rewrite EB. nia. }
    assert (V1 : mag f (bias f * M + r) = (M + r) * B0).
    { rewrite (mag_qr f Hf) by (fold M; lia). reflexivity. }
    (* the scale *)
    set (i := mb f + 2 * bias f - 1 - E).
    assert (Hi : 0 <= i) by (unfold i; lia).
    assert (Rs : exists a, fin a /\ mag f a = 2 ^ i).
    { assert (R : repr f (2 ^ i)).
      { apply (repr_scaled f Hf 1 i); try (fold M; lia). rewrite Z.abs_eq by (apply Z.pow_nonneg; lia).
        apply (pow_lt_inf f Hf). unfold i. lia. }
      destruct R as (a & Ha & Ea). exists a. split; auto. rewrite Ea. apply Z.abs_eq. apply Z.pow_nonneg; lia. }
    destruct Rs as (sp & Fs & Vs).
    assert (Es : fmul f md ((2 ^ eb f - 1 - E) * M) (half_bits f) = sp).
    { unfold half_bits. fold M. rewrite (fmul_fin f Hf) by auto. rewrite VX, VH.
      replace (M * 2 ^ (2 ^ eb f - 1 - E - 1) * (M * 2 ^ (bias f - 1 - 1))) with (mag f sp * 2 ^ unit f).
      - apply (round_bits_exact f Hf); auto. apply (unit_nonneg f Hf).
      - rewrite Vs. unfold M. rewrite <- !Z.pow_add_r; try lia; unfold unit, i; try lia. f_equal. lia. }
    rewrite Es. constructor; auto.
    - exists (mb f + (E - 1)). split; [lia|]. rewrite VE. unfold M. rewrite <- Z.pow_add_r; try lia.
    - exists i. auto.
    - rewrite Vs, VE. unfold M, U. rewrite <- !Z.pow_add_r; try lia; unfold unit, i; try lia. f_equal. lia.
    - rewrite (fmul_fin f Hf) by auto. replace (mag f hi * mag f sp) with (mag f (bias f * M + r) * 2 ^ unit f).
      + apply (round_bits_exact f Hf); auto. apply (unit_nonneg f Hf).
      + rewrite V1, Vhi, Vs. unfold B0. rewrite <- !Z.mul_assoc, <- !Z.pow_add_r; try lia; unfold unit, i; try lia.
        f_equal. f_equal. lia.
    - rewrite V1, VE, Vhi, U_val. ring.
    - rewrite V1. assert (0 < B0) by (apply Z.pow_pos_nonneg; lia). nia.
    - rewrite V1, U_val. assert (0 < B0) by (apply Z.pow_pos_nonneg; lia). nia.
  Qed.
  Lemma scale_subnormal hi : 0 < hi < M -> exists h1, scaling hi (norm_min_bits f) (inv_norm_min f) h1.
  Proof.
    intros Hh. pose proof M_big as HM. pose proof (bias_pos f Hf) as HB. pose proof (mb_pos f Hf) as Hmb. pose proof eb_bias as EB.
    unfold norm_min_bits, inv_norm_min. fold M.
    destruct (exp_fin 1 ltac:(lia)) as [FE VE]. rewrite Z.mul_1_l in FE, VE. change (2 ^ (1 - 1)) with 1 in VE.
    destruct (exp_fin (2 * bias f - 1) ltac:(lia)) as [FS VS].
    assert (Fh : fin hi) by (destruct FE; split; lia).
    assert (Vh : mag f hi = hi) by (apply (mag_small f); fold M; lia).
    assert (Hb0 : 0 < B0) by (apply Z.pow_pos_nonneg; lia).
    assert (Rs : exists a, fin a /\ mag f a = hi * B0).
    { assert (R : repr f (hi * B0)).
      { apply (repr_scaled f Hf hi (bias f - 1)); try (fold M; lia); try (rewrite Z.abs_eq by nia; reflexivity).
        rewrite Z.abs_eq by nia. assert (hi * B0 < M * B0) by nia. rewrite <- U_val in H.
        pose proof (pow_lt_inf f Hf (unit f)) as X. fold U in X. unfold unit in X. specialize (X ltac:(lia)). lia. }
      destruct R as (a & Ha & Ea). exists a. split; auto. rewrite Ea. apply Z.abs_eq. nia. }
    destruct Rs as (h1 & F1 & V1). exists h1. constructor; auto.
    - exists (mb f). split; [lia|]. rewrite VE. fold M. lia.
    - exists (mb f + (2 * bias f - 1 - 1)). split; [lia|]. rewrite VS. unfold M. rewrite <- Z.pow_add_r; try lia.
    - rewrite VS, VE, U_val. unfold B0, M. rewrite Z.mul_1_r, <- !Z.pow_add_r; try lia. f_equal. lia.
    - rewrite (fmul_fin f Hf) by auto. replace (mag f hi * mag f ((2 * bias f - 1) * M)) with (mag f h1 * 2 ^ unit f).
      + apply (round_bits_exact f Hf); auto. apply (unit_nonneg f Hf).
      + rewrite V1, Vh, VS. fold U. rewrite U_val.
        replace (2 * bias f - 1 - 1) with ((bias f - 1) + (bias f - 1)) by lia. rewrite Z.pow_add_r by lia. fold B0. ring.
    - rewrite V1, VE, Vh, U_val. ring.
    - rewrite V1. nia.
    - rewrite V1, U_val. nia.
  Qed.

  (* the smaller argument, scaled: e * l1 = U * lo unless it is subnormal *)
  Lemma scale_lo hi e s h1 lo : scaling hi e s h1 -> fin hi -> fin lo -> mag f lo <= mag f hi ->
    let l1 := fmul f md lo s in
    fin l1 /\ mag f l1 <= 4 * U /\
    (mag f l1 * mag f e = mag f lo * U \/
     (mag f lo * U < M * mag f e /\ P * Z.abs (mag f l1 * mag f e - mag f lo * U) <= M * mag f e)).
  Proof.
    intros S Fh Fl L. cbv zeta. destruct S as [Fe Fs F1 (j & Hj & Ej) (i & Hi & Ei) Inv _ V B1 B2].
    pose proof (U_pos f Hf) as HU. fold U in HU. pose proof M_big as HM. pose proof P_bounds as HP. pose proof Max_big as HX.
    pose proof B0_big as HB. pose proof (fin_mag_nonneg f Hf lo Fl) as Nl. pose proof (fin_mag_nonneg f Hf hi Fh) as Nh.
    assert (He : 0 < mag f e) by (rewrite Ej; apply Z.pow_pos_nonneg; lia).
    assert (Hs : 0 < mag f s) by (rewrite Ei; apply Z.pow_pos_nonneg; lia).
    assert (Q : mag f hi * mag f s = mag f h1 * U).
    { apply (Z.mul_reg_r _ _ (mag f e)); [lia|]. rewrite <- Z.mul_assoc, Inv.
      replace (mag f h1 * U * mag f e) with (mag f h1 * mag f e * U) by ring. rewrite V. ring. }
    assert (Q2 : mag f lo * mag f s <= 2 * U * U) by nia.
    assert (HUB : 1 <= U) by lia.
    assert (Q3 : mag f lo * mag f s <= Max * U) by (assert (1 <= B0) by nia; nia).
    destruct (Z_le_gt_dec (M * U) (mag f lo * mag f s)) as [G|G].
    - assert (X := scale_exact f Hf md lo i (unit f) Fl Hi (unit_nonneg f Hf)). rewrite <- Ei in X. cbv zeta in X.
      specialize (X G Q3). rewrite <- (fmul_fin f Hf) in X by auto. destruct X as [X1 X2]. fold U in X2.
      split; auto. split; [nia|]. left. apply (Z.mul_reg_r _ _ U); [lia|].
      replace (mag f (fmul f md lo s) * mag f e * U) with (mag f (fmul f md lo s) * U * mag f e) by ring.
      rewrite X2, <- Z.mul_assoc, Inv. ring.
    - destruct (mul_err f Hf md lo s Fl Fs Q3) as [X1 X2]. fold U M P in X2. rewrite Z.max_r in X2 by lia.
      set (l1 := fmul f md lo s) in *. pose proof (fin_mag_nonneg f Hf l1 X1) as N1. split; auto.
      assert (A : Z.abs (mag f l1 * U - mag f lo * mag f s) <= U).
      { clear - X2 HP HM HU. pose proof (Z.abs_nonneg (mag f l1 * U - mag f lo * mag f s)). nia. }
      split.
      + assert (mag f l1 * U <= (M + 1) * U) by lia. assert (mag f l1 <= M + 1) by (clear - H HU; nia).
        assert (M + 1 <= U) by (rewrite U_val; clear - HB HM; nia). lia.
      + right. assert (R : mag f lo * U * U = mag f lo * mag f s * mag f e).
        { rewrite <- !Z.mul_assoc, Inv. auto. }
        split.
        * apply (Z.mul_lt_mono_pos_r U); [lia|]. rewrite R. clear - G He. nia.
        * apply (Z.mul_le_mono_pos_r _ _ U); [lia|].
          replace (P * Z.abs (mag f l1 * mag f e - mag f lo * U) * U)
            with (P * (Z.abs (mag f l1 * U - mag f lo * mag f s) * mag f e)).
          { clear - X2 He. nia. }
          rewrite <- Z.mul_assoc. f_equal. rewrite <- (Z.abs_eq (mag f e)) at 1 by lia. rewrite <- (Z.abs_eq U) at 3 by lia.
          rewrite <- !Z.abs_mul. f_equal. rewrite !Z.mul_sub_distr_r. rewrite R. ring.
  Qed.
End Format.
