(* copysign, abs, modf, frexp, logb. *)
From Coq Require Import ZArith List Bool Lia Psatz.
From Verif Require Import Prelude X86Lanes Fixed FloatSpec FloatRoundSpec FloatMathSpec FloatBits FloatArith FloatProofs
  FloatArithProofs FloatRound FloatRoundProofs FloatRoundTop FloatSign FloatMath.
Import ListNotations.
Open Scope Z_scope.

Section Format.
  Variable f : fmt.
  Hypothesis Hf : fmt_ok f.

  Lemma copysign_val x y : pattern f x -> pattern f y -> copysign_lane f x y = with_sign f (sign_of f y) (mag_bits f x).
  Proof.
    intros Hx Hy. unfold copysign_lane. fold (signmask f). cbv zeta.
    rewrite (Z.land_comm y), (land_signmask f Hf) by auto.
    assert (E : Z.land x (Z.lxor x (signmask f)) = mag_bits f x).
    { rewrite (signmask_val f Hf). pose proof (fw_pos f Hf). unfold mag_bits. rewrite <- Z.land_ones by lia.
      apply Z.bits_inj'. intros i Hi. rewrite !Z.land_spec, Z.lxor_spec, testbit_pow2, testbit_ones by lia.
      destruct Hx as [H0 H1].
      destruct (Z.eqb_spec (fw f - 1) i); destruct (Z.ltb_spec i (fw f - 1)); try lia.
      - destruct (Z.testbit x i); auto.
      - destruct (Z.testbit x i); auto.
      - rewrite (Z.bits_above_log2 x i); auto. destruct (Z.eq_dec x 0) as [->|]; [simpl; lia|].
        apply Z.log2_lt_pow2; [lia|]. assert (2 ^ fw f <= 2 ^ i) by (apply Z.pow_le_mono_r; lia). lia. }
    rewrite E, Z.lor_comm. apply (lor_sign f Hf). apply (mag_bits_bound f Hf).
  Qed.
  Lemma copysign_decode x y s m : pattern f x -> pattern f y -> decode f x = DFin s m ->
    decode f (copysign_lane f x y) = DFin (sign_of f y) m.
  Proof.
    intros Hx Hy D. rewrite copysign_val by auto. destruct (finite_arg f Hf x s m Hx D) as (S & Em & Ha & _).
    rewrite (decode_with_sign f Hf) by auto. congruence.
  Qed.
  Lemma copysign_nan x y : pattern f x -> pattern f y -> decode f x = DNaN -> decode f (copysign_lane f x y) = DNaN.
  Proof.
    intros Hx Hy D. rewrite copysign_val by auto. pose proof (mag_bits_bound f Hf x).
    rewrite (decode_split f Hf), (sign_with_sign f), (mag_with_sign f) by auto.
    rewrite (decode_split f Hf) in D. eapply decode_mag_nan; eauto.
  Qed.
  Lemma zero_decode : decode f (zero_bits f) = DFin false 0.
  Proof.
    destruct (zero_val f Hf) as [_ V]. apply (fval_decode f Hf); auto. unfold zero_bits. pose proof (inf_pos f Hf). lia.
  Qed.
  Lemma isinf_decode t x : pattern f x -> isinf_lane t f x = match decode f x with DInf _ => true | _ => false end.
  Proof.
    intros Hx. rewrite (isinf_ok f Hf) by auto. unfold is_class, class_of.
    destruct (decode f x) as [|?|? m]; auto. destruct (_ =? _); auto. destruct (_ <? _); auto.
  Qed.
  Lemma isnan_decode t x : pattern f x -> isnan_lane t f x = match decode f x with DNaN => true | _ => false end.
  Proof.
    intros Hx. rewrite (isnan_ok f Hf) by auto. unfold is_class, class_of.
    destruct (decode f x) as [|?|? m]; auto. destruct (_ =? _); auto. destruct (_ <? _); auto.
  Qed.
  Lemma isnormal_decode t x v : pattern f x -> isnormal_lane t f x = Some v ->
    v = match decode f x with DFin _ m => 2 ^ mb f <=? m | _ => false end.
  Proof.
    intros Hx E. rewrite (isnormal_ok f Hf t x v Hx E). unfold is_class, class_of.
    destruct (decode f x) as [|?|? m]; auto. pose proof (pow_mb_pos f Hf).
    destruct (Z.eqb_spec m 0); destruct (Z.leb_spec (2 ^ mb f) m); destruct (Z.ltb_spec m (2 ^ mb f)); auto; lia.
  Qed.

  Lemma modf_ok t rt md x b : pattern f x -> trunc_ok f x (trunc_lane rt f md x) ->
    (b = true -> forall s m, decode f x = DFin s m -> decode f (trunc_lane rt f md x) = DFin s (m / one f * one f)) ->
    modf_result b f (decode f x) (decode f (fst (modf_lane t rt f md x))) (decode f (snd (modf_lane t rt f md x))).
  Proof.
    intros Hx [PT HT] HS. unfold modf_lane. cbv zeta. cbn [fst snd]. rewrite isinf_decode by auto.
    set (y := trunc_lane rt f md x) in *. destruct (zero_val f Hf) as [P0 V0].
    assert (PD : pattern f (fsub f md x y)) by apply (fsub_pattern f Hf).
    pose proof (sign_datum f Hf x) as SD.
    unfold modf_result. destruct (decode f x) as [|s|s m] eqn:D.
    - split; auto. apply copysign_nan; auto. unfold fsub. apply (nan_add_l f Hf). auto.
    - split; auto. rewrite (copysign_decode (zero_bits f) x false 0); auto using zero_decode. congruence.
    - destruct (finite_arg f Hf x s m Hx D) as (S & Em & Ha & Hm & V & VA & PA & RM).
      pose proof (one_pos f Hf) as HU.
      pose proof (Z.div_mod m (one f) ltac:(lia)) as DM. pose proof (Z.mod_pos_bound m (one f) HU) as DB.
      assert (Q : 0 <= m / one f) by (apply Z.div_pos; lia).
      assert (SUB : fval f (fsub f md x y) = Some (num s m - num s (m / one f * one f))).
      { apply (fsub_exact f Hf); auto.
        replace (num s m - num s (m / one f * one f)) with (num s (m mod one f)) by (destruct s; simpl; lia).
        apply repr_num. apply (frac_repr f Hf x s m Hx D). }
      unfold fval in SUB, HT. destruct (decode f (fsub f md x y)) as [|?|s1 m1] eqn:D1; try discriminate.
      destruct (decode f y) as [|?|s2 m2] eqn:D2; try discriminate. inversion SUB as [E1]. inversion HT as [E2].
      destruct (finite_arg f Hf _ s1 m1 PD D1) as (_ & _ & _ & Hm1 & _).
      destruct (finite_arg f Hf _ s2 m2 PT D2) as (_ & _ & _ & Hm2 & _).
      exists (m mod one f), (m / one f), s2.
      split. { rewrite (copysign_decode _ x s1 m1 PD Hx D1). rewrite S. f_equal. destruct s, s1; cbn [num] in E1; lia. }
      split. { f_equal. destruct s, s2; cbn [num] in E2; lia. }
      split; [lia|]. split; [lia|]. split; [lia|].
      intros [NZ|Hb].
      + assert (0 < m / one f * one f) by nia. destruct s, s2; cbn [num] in E2; auto; lia.
      + specialize (HS Hb s m eq_refl). inversion HS. auto.
  Qed.
End Format.
