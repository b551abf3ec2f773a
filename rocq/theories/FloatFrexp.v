(* frexp and logb. *)
From Coq Require Import ZArith List Bool Lia Psatz.
From Verif Require Import Prelude X86Lanes Fixed FloatSpec FloatRoundSpec FloatMathSpec FloatBits FloatArith FloatProofs
  FloatArithProofs FloatRound FloatRoundProofs FloatRoundTop FloatSign FloatMath FloatMathProofs.
Import ListNotations.
Open Scope Z_scope.

(* bitwise operations on numbers in two parts *)
Lemma testbit_parts a b k i : 0 <= k -> 0 <= b < 2 ^ k -> 0 <= i ->
  Z.testbit (a * 2 ^ k + b) i = if i <? k then Z.testbit b i else Z.testbit a (i - k).
Proof.
  intros Hk Hb Hi. destruct (Z.ltb_spec i k).
  - rewrite <- (Z.mod_pow2_bits_low _ k i) by lia. rewrite Z.add_comm, Z.mod_add, Z.mod_small by lia. auto.
  - replace i with ((i - k) + k) at 1 by lia. rewrite <- Z.div_pow2_bits by lia.
    rewrite Z.div_add_l, Z.div_small by lia. rewrite Z.add_0_r. auto.
Qed.
Lemma land_parts a b c d k : 0 <= k -> 0 <= b < 2 ^ k -> 0 <= d < 2 ^ k ->
  Z.land (a * 2 ^ k + b) (c * 2 ^ k + d) = Z.land a c * 2 ^ k + Z.land b d.
Proof.
  intros Hk Hb Hd. assert (R : 0 <= Z.land b d < 2 ^ k).
  { split; [apply Z.land_nonneg; lia|]. replace (Z.land b d) with (Z.land b d mod 2 ^ k); [apply Z.mod_pos_bound; lia|].
    rewrite <- Z.land_ones by lia. rewrite <- Z.land_assoc. rewrite Z.land_ones by lia. rewrite Z.mod_small by lia. auto. }
  apply Z.bits_inj'. intros i Hi. rewrite Z.land_spec, !testbit_parts by auto.
  destruct (i <? k); rewrite Z.land_spec; auto.
Qed.
Lemma lor_parts a b c d k : 0 <= k -> 0 <= b < 2 ^ k -> 0 <= d < 2 ^ k ->
  Z.lor (a * 2 ^ k + b) (c * 2 ^ k + d) = Z.lor a c * 2 ^ k + Z.lor b d.
Proof.
  intros Hk Hb Hd. assert (R : 0 <= Z.lor b d < 2 ^ k).
  { split; [apply Z.lor_nonneg; lia|]. replace (Z.lor b d) with (Z.lor b d mod 2 ^ k); [apply Z.mod_pos_bound; lia|].
    rewrite <- Z.land_ones by lia. rewrite Z.land_lor_distr_l. rewrite !Z.land_ones by lia. rewrite !Z.mod_small by lia. auto. }
  apply Z.bits_inj'. intros i Hi. rewrite Z.lor_spec, !testbit_parts by auto.
  destruct (i <? k); rewrite Z.lor_spec; auto.
Qed.

(* n * 2^A = m * 2^B for the exponent A - B *)
Lemma cancel_exp n m A B : 0 <= A -> 0 <= B -> n * 2 ^ A = m * 2 ^ B ->
  n * 2 ^ Z.max (A - B) 0 = m * 2 ^ Z.max (- (A - B)) 0.
Proof.
  intros HA HB E. destruct (Z_le_gt_dec A B).
  - rewrite (Z.max_r (A - B)), (Z.max_l (- (A - B))) by lia.
    apply (Z.mul_reg_r _ _ (2 ^ A)); [apply Z.pow_nonzero; lia|].
    rewrite <- !Z.mul_assoc, <- !Z.pow_add_r by lia. replace (0 + A) with A by lia. replace (- (A - B) + A) with B by lia. auto.
  - rewrite (Z.max_l (A - B)), (Z.max_r (- (A - B))) by lia.
    apply (Z.mul_reg_r _ _ (2 ^ B)); [apply Z.pow_nonzero; lia|].
    rewrite <- !Z.mul_assoc, <- !Z.pow_add_r by lia. replace (A - B + B) with A by lia. replace (0 + B) with B by lia. auto.
Qed.

Section Format.
  Variable f : fmt.
  Hypothesis Hr : real_fmt f.
  Let Hf : fmt_ok f := real_ok f Hr.
  Let M := 2 ^ mb f.
  Let U := one f.

  Local Lemma HM : 2 <= M. Proof. apply (pow_mb_pos f Hf). Qed.
  Local Lemma Hmb : 1 <= mb f. Proof. apply (mb_pos f Hf). Qed.

  Local Lemma landM a b c d : 0 <= b < M -> 0 <= d < M -> Z.land (a * M + b) (c * M + d) = Z.land a c * M + Z.land b d.
  Proof. intros. apply land_parts; auto. pose proof Hmb. lia. Qed.
  Local Lemma lorM a b c d : 0 <= b < M -> 0 <= d < M -> Z.lor (a * M + b) (c * M + d) = Z.lor a c * M + Z.lor b d.
  Proof. intros. apply lor_parts; auto. pose proof Hmb. lia. Qed.

  (* the exponent field *)
  Lemma extract_val x : pattern f x -> extract_exponent f x = mag_bits f x / M.
  Proof.
    intros Hx. unfold extract_exponent. change (fp f - 1) with (mb f). pose proof Hmb. pose proof HM.
    pose proof (eb_pos f Hf). pose proof (pow_eb_pos f Hf).
    rewrite Z.shiftr_div_pow2 by lia. unfold inf_bits. fold M.
    assert (E : Z.land x ((2 ^ eb f - 1) * M) = (x / M) mod 2 ^ eb f * M + 0).
    { rewrite (Z.div_mod x M) at 1 by lia. rewrite (Z.mul_comm M). replace ((2 ^ eb f - 1) * M) with ((2 ^ eb f - 1) * M + 0) by lia.
      rewrite landM; [|apply Z.mod_pos_bound; lia|lia].
      rewrite Z.land_0_r. replace (2 ^ eb f - 1) with (Z.ones (eb f)) by (rewrite Z.ones_equiv; lia).
      rewrite Z.land_ones by lia. auto. }
    rewrite E, Z.add_0_r, Z.div_mul by lia. fold (exp_of f x). apply (exp_of_mag f Hf).
  Qed.

  Lemma p5_parts : p5_1_exponent f = (1 * 2 ^ eb f + (bias f - 1)) * M + (M - 1).
  Proof. unfold M. destruct Hr; subst f; reflexivity. Qed.
  Lemma exp_adjust_val : exp_adjust f = bias f - 1.
  Proof. destruct Hr; subst f; reflexivity. Qed.
  Lemma exp_offset_facts : mb f <= exp_offset f /\ bias f + exp_offset f < 2 ^ eb f - 1 /\ mb f + exp_offset f < mb f + 2 * bias f.
  Proof. destruct Hr; subst f; vm_compute; intuition discriminate. Qed.

  Lemma mant_bits_val x : pattern f x ->
    mant_bits f x = with_sign f (sign_of f x) ((bias f - 1) * M + mag_bits f x mod M).
  Proof.
    intros Hx. pose proof Hmb. pose proof HM. pose proof (eb_pos f Hf). pose proof (pow_eb_pos f Hf). pose proof (pow_bias f Hf).
    pose proof (bias_pos f Hf). pose proof (mag_bits_bound f Hf x) as HB. rewrite (pow_fw1 f Hf) in HB. fold M in HB.
    set (s := sign_of f x). set (a := mag_bits f x) in *. set (q := a / M). set (r := a mod M).
    assert (Hr' : 0 <= r < M) by (apply Z.mod_pos_bound; lia).
    assert (Hq : 0 <= q < 2 ^ eb f) by (split; [apply Z.div_pos; lia|apply Z.div_lt_upper_bound; lia]).
    assert (Ea : a = q * M + r) by (unfold q, r; rewrite Z.mul_comm; apply Z.div_mod; lia).
    set (sb := if s then 1 else 0).
    assert (Ex : x = (sb * 2 ^ eb f + q) * M + r).
    { rewrite (split_with_sign f Hf x Hx). fold s a. unfold with_sign. rewrite (pow_fw1 f Hf). fold M. unfold sb. destruct s; rewrite Ea; ring. }
    unfold mant_bits. rewrite p5_parts. unfold inf_bits. fold M. rewrite Ex.
    replace ((2 ^ eb f - 1) * M) with ((0 * 2 ^ eb f + (2 ^ eb f - 1)) * M + 0) by lia.
    rewrite lorM by lia. rewrite lor_parts by lia.
    rewrite Z.lor_0_l. rewrite (Z.lor_0_l r).
    replace (2 ^ eb f - 1) with (Z.ones (eb f)) by (rewrite Z.ones_equiv; lia).
    assert (LO : Z.lor (Z.ones (eb f)) q = Z.ones (eb f)).
    { rewrite Z.lor_comm. destruct (Z.eq_dec q 0) as [->|]; [apply Z.lor_0_l|]. apply Z.lor_ones_low; [lia|]. apply Z.log2_lt_pow2; lia. }
    rewrite LO. rewrite landM by lia.
    rewrite land_parts by (rewrite ?Z.ones_equiv; lia).
    rewrite (Z.land_ones (bias f - 1)) by lia. rewrite (Z.mod_small (bias f - 1)) by lia. fold M.
    replace (M - 1) with (Z.ones (mb f)) by (rewrite Z.ones_equiv; fold M; lia).
    rewrite (Z.land_comm _ r), Z.land_ones by lia. fold M. rewrite (Z.mod_small r) by lia.
    unfold with_sign. rewrite (pow_fw1 f Hf). fold M. unfold sb. destruct s; simpl (Z.land _ _); ring.
  Qed.

  Lemma half_interval r : 0 <= r < M ->
    U <= 2 * ((M + r) * 2 ^ (bias f - 2)) /\ (M + r) * 2 ^ (bias f - 2) < U.
  Proof.
    intros H. pose proof (bias_pos f Hf). pose proof Hmb.
    assert (E : U = 2 * M * 2 ^ (bias f - 2)).
    { unfold U, one, unit. replace (mb f + bias f - 1) with (1 + mb f + (bias f - 2)) by lia. rewrite !Z.pow_add_r by lia. auto. }
    rewrite E. assert (0 < 2 ^ (bias f - 2)) by (apply Z.pow_pos_nonneg; lia). nia.
  Qed.
  Lemma mant_decode s r : 0 <= r < M ->
    decode f (with_sign f s ((bias f - 1) * M + r)) = DFin s ((M + r) * 2 ^ (bias f - 2)).
  Proof.
    intros H. pose proof (bias_pos f Hf). pose proof (pow_bias f Hf). pose proof HM.
    rewrite (decode_with_sign f Hf) by (unfold inf_bits; fold M; nia).
    unfold M. rewrite (mag_qr f Hf) by (auto; lia). f_equal. f_equal. f_equal. lia.
  Qed.

  (* the numbers in normal form *)
  Lemma mag_normal a : M <= a -> 0 <= a mod M < M /\ 1 <= a / M /\ mag f a = (M + a mod M) * 2 ^ (a / M - 1).
  Proof.
    intros H. pose proof HM. pose proof (Z.mod_pos_bound a M ltac:(lia)).
    assert (1 <= a / M) by (apply Z.div_le_lower_bound; lia). repeat split; try lia.
    pose proof (mag_qr f Hf (a / M) (a mod M) ltac:(lia) ltac:(fold M; lia)) as E. fold M in E. rewrite <- E. f_equal.
    rewrite Z.mul_comm. apply Z.div_mod. lia.
  Qed.

  (* frexp of a number that is already normal *)
  Lemma fast_ok x s m : pattern f x -> decode f x = DFin s m -> M <= m ->
    frexp_result f (decode f x) (decode f (mant_bits f x)) (extract_exponent f x - exp_adjust f).
  Proof.
    intros Hx D Hm. pose proof HM. pose proof (bias_pos f Hf). unfold frexp_result. rewrite D.
    destruct (Z.eqb_spec m 0); [lia|].
    destruct (finite_arg f Hf x s m Hx D) as (S & Em & Ha & _). set (a := mag_bits f x) in *.
    assert (Ma : M <= a).
    { pose proof (mag_subnormal f Hf a ltac:(lia)) as Q. fold M in Q. rewrite <- Em in Q.
      destruct (Z.ltb_spec m M); destruct (Z.ltb_spec a M); try lia; discriminate. }
    destruct (mag_normal a Ma) as (R & Q & N).
    rewrite mant_bits_val, extract_val, exp_adjust_val, S by auto. fold a.
    rewrite mant_decode by auto. destruct (half_interval (a mod M) R) as [I1 I2].
    eexists. split; [reflexivity|]. split; [exact I1|]. split; [exact I2|].
    replace (a / M - (bias f - 1)) with ((a / M - 1) - (bias f - 2)) by lia.
    apply cancel_exp; try lia. all: rewrite Em, N; ring.
  Qed.

  (* multiplication by a power of two *)
  Lemma scale_val k : 0 <= k -> bias f + k < 2 ^ eb f - 1 ->
    pattern f ((bias f + k) * 2 ^ mb f) /\ decode f ((bias f + k) * 2 ^ mb f) = DFin false (2 ^ k * U).
  Proof.
    intros Hk H. pose proof (bias_pos f Hf). pose proof Hmb.
    destruct (const_val f Hf (bias f + k) ltac:(lia) H) as (P & V & R).
    split; auto. rewrite (fval_decode f Hf _ _ R V). f_equal.
    unfold U, one, unit. rewrite <- !Z.pow_add_r by lia. f_equal. lia.
  Qed.
  Lemma fmul_pattern md x y : pattern f (fmul f md x y).
  Proof.
    pose proof (unit_pos f Hf). pose proof (inf_pos f Hf). pose proof (inf_lt f Hf).
    assert (PN : pattern f (nan_bits f)) by apply (pattern_nan f Hf).
    assert (PI : forall s, pattern f (with_sign f s (inf_bits f))) by (intros; apply (with_sign_pattern f Hf); lia).
    unfold fmul. destruct (decode f x), (decode f y); auto; try (destruct (_ =? 0); auto).
    apply (fround_pattern f Hf). apply (HuM f Hf).
  Qed.
  Lemma scaled_val md x s m k : decode f x = DFin s m -> 0 <= m < M -> 0 <= k < 2 * bias f -> bias f + k < 2 ^ eb f - 1 ->
    decode f (fmul f md x ((bias f + k) * 2 ^ mb f)) = DFin s (m * 2 ^ k).
  Proof.
    intros D Hm Hk H. pose proof (unit_pos f Hf) as HU. pose proof Hmb. pose proof HM.
    destruct (scale_val k ltac:(lia) H) as [_ DS]. unfold fmul. rewrite D, DS.
    assert (P : 0 < 2 ^ k) by (apply Z.pow_pos_nonneg; lia). assert (PU : 0 < U) by apply (one_pos f Hf).
    rewrite (fround_exact f Hf md _ _ (unit f) (num s (m * 2 ^ k))).
    - destruct (Z.eqb_spec (num s m * num false (2 ^ k * U)) 0) as [Z0|N0].
      + f_equal; [destruct s; auto|]. cbn [num] in Z0. assert (m = 0) by (destruct s; cbn [num] in Z0; nia). subst m. destruct s; auto.
      + f_equal.
        * assert (m <> 0) by (intros ->; destruct s; apply N0; reflexivity).
          destruct s; cbn [num]; [apply Z.ltb_lt|apply Z.ltb_ge]; nia.
        * destruct s; cbn [num]; rewrite ?Z.abs_opp; apply Z.abs_eq; nia.
    - lia.
    - cbn [num]. change (2 ^ unit f) with U. destruct s; cbn [num]; ring.
    - apply repr_num. apply (repr_scaled f Hf m k); try (fold M; lia).
      + rewrite Z.abs_eq by nia. apply Z.lt_trans with (2 ^ (mb f + k)).
        * rewrite Z.pow_add_r by lia. fold M. nia.
        * apply (pow_lt_inf f Hf). lia.
  Qed.

  (* frexp of a subnormal number *)
  Lemma sub_ok md x s m : pattern f x -> decode f x = DFin s m -> 0 < m < M ->
    let y := fmul f md x (subnorm_scale f) in
    frexp_result f (decode f x) (decode f (mant_bits f y)) (extract_exponent f y - (exp_adjust f + exp_offset f)).
  Proof.
    intros Hx D Hm y. pose proof HM. pose proof Hmb. pose proof (bias_pos f Hf). unfold frexp_result. rewrite D.
    destruct (Z.eqb_spec m 0); [lia|]. destruct exp_offset_facts as (O1 & O2 & O3). set (k := exp_offset f) in *.
    assert (DY : decode f y = DFin s (m * 2 ^ k)).
    { unfold y, subnorm_scale. fold k. eapply scaled_val; eauto; lia. }
    assert (PY : pattern f y) by apply fmul_pattern.
    destruct (finite_arg f Hf y s _ PY DY) as (S & Em & Ha & _). set (a := mag_bits f y) in *.
    assert (MK : M <= 2 ^ k) by (apply Z.pow_le_mono_r; lia).
    assert (Ma : M <= a).
    { pose proof (mag_subnormal f Hf a ltac:(lia)) as Q. fold M in Q. rewrite <- Em in Q.
      destruct (Z.ltb_spec (m * 2 ^ k) M); destruct (Z.ltb_spec a M); try nia; discriminate. }
    destruct (mag_normal a Ma) as (R & Q & N).
    rewrite mant_bits_val, extract_val, exp_adjust_val, S by auto. fold a.
    rewrite mant_decode by auto. destruct (half_interval (a mod M) R) as [I1 I2].
    eexists. split; [reflexivity|]. split; [exact I1|]. split; [exact I2|].
    replace (a / M - (bias f - 1 + k)) with ((a / M - 1) - (bias f - 2 + k)) by lia.
    apply cancel_exp; try lia. rewrite Z.pow_add_r by lia. rewrite <- Em in N.
    transitivity ((M + a mod M) * 2 ^ (a / M - 1) * 2 ^ (bias f - 2)); [ring|]. rewrite <- N. ring.
  Qed.

  Lemma class_bits x : pattern f x ->
    (sgn (fw f) (fabs_lane f x) =? 0) || (sgn (fw f) (inf_bits f) <=? sgn (fw f) (fabs_lane f x)) =
    match decode f x with DFin _ m => m =? 0 | _ => true end.
  Proof.
    intros Hx. rewrite (fabs_val f Hf). pose proof (mag_bits_bound f Hf x). pose proof (inf_lt f Hf). pose proof (inf_pos f Hf).
    rewrite !(sgn_small f) by lia. rewrite (decode_split f Hf). unfold decode_mag.
    destruct (Z.ltb_spec (mag_bits f x) (inf_bits f)).
    - rewrite (mag_zero f Hf) by lia. destruct (Z.leb_spec (inf_bits f) (mag_bits f x)); [lia|]. apply orb_false_r.
    - destruct (Z.leb_spec (inf_bits f) (mag_bits f x)); [|lia]. rewrite orb_true_r. destruct (_ =? _); auto.
  Qed.
  Lemma fne_zero x s m : pattern f x -> decode f x = DFin s m -> fne f x (zero_bits f) = negb (m =? 0).
  Proof.
    intros Hx D. destruct (zero_val f Hf) as [P0 V0]. destruct (finite_arg f Hf x s m Hx D) as (_ & _ & _ & _ & V & _).
    assert (E : fne f x (zero_bits f) = negb (feq f x (zero_bits f))) by (unfold fne, feq, cmp; destruct (compare_lanes f x (zero_bits f)) as [[]|]; auto).
    rewrite E. rewrite (feq_fin f x (zero_bits f) (num s m) 0) by auto. f_equal. destruct s; cbn [num]; auto.
    destruct (Z.eqb_spec m 0), (Z.eqb_spec (- m) 0); auto; lia.
  Qed.
  Lemma slow_ok t md x b : pattern f x -> isnormal_lane t f x = Some b ->
    frexp_result f (decode f x) (decode f (fst (frexp_slow f md b x))) (snd (frexp_slow f md b x)).
  Proof.
    intros Hx Hb. pose proof (isnormal_decode f Hf t x b Hx Hb) as Eb. pose proof HM. pose proof Hmb.
    unfold frexp_slow. cbv zeta. cbn [fst snd]. rewrite class_bits by auto.
    destruct (decode f x) as [|s|s m] eqn:D; try exact D.
    destruct (finite_arg f Hf x s m Hx D) as (S & Em & Ha & Hm & _).
    pose proof (mag_subnormal f Hf (mag_bits f x) ltac:(lia)) as Q. fold M in Q. rewrite <- Em in Q.
    rewrite extract_val by auto. rewrite (fne_zero x s m Hx D). fold M in Eb.
    destruct b; cbn [negb].
    - symmetry in Eb. apply Z.leb_le in Eb. destruct (Z.eqb_spec m 0); [lia|]. destruct (Z.ltb_spec m M); [lia|].
      destruct (Z.ltb_spec (mag_bits f x) M); [discriminate|].
      destruct (mag_normal (mag_bits f x) ltac:(lia)) as (R & Q1 & N).
      destruct (Z.eqb_spec (mag_bits f x / M) 0); [lia|]. cbn [andb imask]. rewrite Z.land_0_l, Z.lor_0_r, Z.land_m1_l.
      pose proof (fast_ok x s m Hx D Eb) as F. rewrite D, extract_val in F by auto. auto.
    - symmetry in Eb. apply Z.leb_gt in Eb. cbn [imask]. rewrite Z.land_0_l, Z.lor_0_l.
      destruct (Z.ltb_spec m M); [|lia]. destruct (Z.ltb_spec (mag_bits f x) M); [|discriminate].
      rewrite (Z.div_small (mag_bits f x)) by lia. cbn [Z.eqb andb].
      destruct (Z.eqb_spec m 0) as [E0|N0]; cbn [negb imask].
      + unfold frexp_result. destruct (Z.eqb_spec m 0); [|lia]. split; auto. rewrite Z.land_0_l, Z.sub_0_r.
        rewrite E0 in D. destruct exp_offset_facts as (O1 & O2 & O3). pose proof (bias_pos f Hf).
        assert (DY : decode f (fmul f md x (subnorm_scale f)) = DFin s (0 * 2 ^ exp_offset f)) by (unfold subnorm_scale; apply scaled_val; auto; lia).
        rewrite extract_val by apply fmul_pattern.
        destruct (finite_arg f Hf _ s _ (fmul_pattern md x _) DY) as (_ & Em' & Ha' & _).
        rewrite Z.mul_0_l in Em'. pose proof (mag_zero f Hf (mag_bits f (fmul f md x (subnorm_scale f))) ltac:(lia)) as MZ.
        rewrite <- Em' in MZ. symmetry in MZ. apply Z.eqb_eq in MZ. rewrite MZ. apply Z.div_0_l. lia.
      + rewrite Z.land_m1_l. pose proof (sub_ok md x s m Hx D ltac:(lia)) as F. rewrite D in F. auto.
  Qed.
  Lemma fast_slow t md x : pattern f x -> isnormal_lane t f x = Some true -> frexp_fast f x = frexp_slow f md true x.
  Proof.
    intros Hx Hb. pose proof (isnormal_decode f Hf t x true Hx Hb) as Eb. pose proof HM.
    unfold frexp_fast, frexp_slow. cbv zeta. rewrite class_bits by auto. cbn [negb imask].
    destruct (decode f x) as [|s|s m] eqn:D; try discriminate.
    destruct (finite_arg f Hf x s m Hx D) as (S & Em & Ha & Hm & _). symmetry in Eb. apply Z.leb_le in Eb. fold M in Eb.
    pose proof (mag_subnormal f Hf (mag_bits f x) ltac:(lia)) as Q. fold M in Q. rewrite <- Em in Q.
    destruct (Z.eqb_spec m 0); [lia|]. destruct (Z.ltb_spec m M); [lia|].
    destruct (Z.ltb_spec (mag_bits f x) M); [discriminate|].
    destruct (mag_normal (mag_bits f x) ltac:(lia)) as (R & Q1 & N). rewrite extract_val by auto.
    destruct (Z.eqb_spec (mag_bits f x / M) 0); [lia|]. cbn [andb]. rewrite Z.land_0_l, Z.lor_0_r, Z.land_m1_l. auto.
  Qed.

  (* ---------------------------------------------------------------- *)
  (* AVX512: getexp, getmant *)
  Lemma mag_log2 a : 0 < a < inf_bits f ->
    exists r, 0 <= r < M /\ 0 <= Z.log2 (mag f a) /\ mag f a * M = (M + r) * 2 ^ Z.log2 (mag f a) /\
      Z.log2 (mag f a) < mb f + 2 * bias f.
  Proof.
    intros Ha. pose proof HM. pose proof Hmb.
    assert (P : 0 < mag f a) by (pose proof (mag_zero f Hf a ltac:(lia)); pose proof (mag_nonneg f Hf a ltac:(lia));
      destruct (Z.eqb_spec (mag f a) 0); destruct (Z.eqb_spec a 0); try discriminate; lia).
    assert (UB : Z.log2 (mag f a) < mb f + 2 * bias f).
    { apply Z.log2_lt_pow2; auto. rewrite <- (mag_inf f Hf). apply (mag_mono f Hf); lia. }
    destruct (Z_lt_le_dec a M) as [L|L].
    - rewrite (mag_small f a) in * by (fold M; lia). set (l := Z.log2 a) in *.
      destruct (Z.log2_spec a ltac:(lia)) as [L1 L2]. fold l in L1, L2.
      assert (0 <= l) by apply Z.log2_nonneg.
      assert (l < mb f) by (apply Z.log2_lt_pow2; [lia|fold M; lia]).
      assert (EM : M = 2 ^ l * 2 ^ (mb f - l)) by (unfold M; rewrite <- Z.pow_add_r by lia; f_equal; lia).
      assert (0 < 2 ^ (mb f - l)) by (apply Z.pow_pos_nonneg; lia).
      rewrite Z.pow_succ_r in L2 by lia.
      exists (a * 2 ^ (mb f - l) - M). split; [rewrite EM; nia|]. split; auto. split; auto. rewrite EM at 1. ring.
    - destruct (mag_normal a L) as (R & Q & N). set (r := a mod M) in *. set (q := a / M) in *.
      assert (LG : Z.log2 (mag f a) = mb f + (q - 1)).
      { rewrite N. rewrite Z.log2_mul_pow2 by lia. enough (Z.log2 (M + r) = mb f) by lia.
        apply Z.log2_unique; [lia|]. rewrite Z.pow_succ_r by lia. fold M. lia. }
      exists r. split; auto. rewrite LG in *. split; [lia|]. split; [|auto]. rewrite N, Z.pow_add_r by lia. fold M. ring.
  Qed.
  Lemma getmant_ok x s m : pattern f x -> decode f x = DFin s m -> m <> 0 ->
    frexp_result f (decode f x) (decode f (getmant f x)) (1 + (Z.log2 m - unit f)).
  Proof.
    intros Hx D N0. destruct (finite_arg f Hf x s m Hx D) as (S & Em & Ha & Hm & _). pose proof HM. pose proof Hmb.
    pose proof (bias_pos f Hf). pose proof (pow_bias f Hf). pose proof (unit_pos f Hf).
    unfold frexp_result, getmant. rewrite D. destruct (Z.eqb_spec m 0); [lia|].
    assert (A0 : 0 < mag_bits f x < inf_bits f).
    { pose proof (mag_zero f Hf (mag_bits f x) ltac:(lia)) as MZ. rewrite <- Em in MZ.
      destruct (Z.eqb_spec m 0); destruct (Z.eqb_spec (mag_bits f x) 0); try discriminate; lia. }
    destruct (mag_log2 (mag_bits f x) A0) as (r & R & L & E & _). rewrite <- Em in *.
    set (b := (bias f - 1) * M + r).
    assert (MB : mag f b = (M + r) * 2 ^ (bias f - 2)).
    { unfold b, M. rewrite (mag_qr f Hf) by (fold M; lia). f_equal. f_equal. lia. }
    assert (EQ : m * 2 ^ (unit f - 1) = mag f b * 2 ^ Z.log2 m).
    { rewrite MB. unfold unit. replace (mb f + bias f - 1 - 1) with (mb f + (bias f - 2)) by lia. rewrite Z.pow_add_r by lia. fold M.
      transitivity (m * M * 2 ^ (bias f - 2)); [ring|]. rewrite E. ring. }
    rewrite EQ. rewrite (round_bits_exact f Hf) by (auto; unfold b, inf_bits; fold M; nia).
    unfold b. rewrite mant_decode by auto. destruct (half_interval r R) as [I1 I2].
    eexists. split; [reflexivity|]. split; [exact I1|]. split; [exact I2|].
    replace (1 + (Z.log2 m - unit f)) with (Z.log2 m - (unit f - 1)) by lia.
    apply cancel_exp; lia.
  Qed.
  Lemma exp_range x s m : pattern f x -> decode f x = DFin s m -> m <> 0 ->
    Z.abs (Z.log2 m - unit f) <= 2 * M /\ Z.abs (Z.log2 m - unit f) < 2 ^ 31 - 1.
  Proof.
    intros Hx D N0. destruct (finite_arg f Hf x s m Hx D) as (S & Em & Ha & Hm & _).
    assert (A0 : 0 < mag_bits f x < inf_bits f).
    { pose proof (mag_zero f Hf (mag_bits f x) ltac:(lia)) as MZ. rewrite <- Em in MZ.
      destruct (Z.eqb_spec m 0); destruct (Z.eqb_spec (mag_bits f x) 0); try discriminate; lia. }
    destruct (mag_log2 (mag_bits f x) A0) as (r & R & L & E & B). rewrite <- Em in *.
    assert (K : unit f <= 2 * M /\ mb f + 2 * bias f <= 2 * M /\ unit f < 2 ^ 30 /\ mb f + 2 * bias f < 2 ^ 30 /\ 0 <= unit f)
      by (unfold M; destruct Hr; subst f; vm_compute; intuition discriminate).
    change (2 ^ 31) with (2 * 2 ^ 30). lia.
  Qed.
  Lemma getexp_val md x s m : pattern f x -> decode f x = DFin s m -> m <> 0 ->
    fval f (getexp f md x) = Some ((Z.log2 m - unit f) * U).
  Proof.
    intros Hx D N0. unfold getexp. rewrite D. destruct (Z.eqb_spec m 0); [lia|].
    apply (fof_int_val f Hf). apply (exp_range x s m Hx D N0).
  Qed.
  Lemma cvt_int_val x v : fval f x = Some (v * U) -> Z.abs v < 2 ^ 31 - 1 -> cvt_int f x = v.
  Proof.
    intros V R. unfold fval in V. unfold cvt_int. destruct (decode f x) as [|?|s m]; try discriminate. inversion V as [E].
    cbv zeta. change (2 ^ unit f) with U. rewrite E. assert (0 < U) by apply (one_pos f Hf). rewrite Z.quot_mul by lia.
    destruct (Z.leb_spec (- 2 ^ 31) v); [|lia]. destruct (Z.ltb_spec v (2 ^ 31)); [auto|lia].
  Qed.
  Lemma isnonzero_ok t md x : pattern f x ->
    isnonzerovalue t f md x = match decode f x with DFin _ m => negb (m =? 0) | _ => false end.
  Proof.
    intros Hx. unfold isnonzerovalue. destruct (t_dq t && t_vl t).
    - rewrite (fpclass_ok f 0x9f x); [|apply only6; [lia|reflexivity]|reflexivity|reflexivity|reflexivity].
      unfold class_of. destruct (decode f x) as [|?|? m]; auto. destruct (m =? 0); auto. destruct (_ <? _); auto.
    - rewrite ord_compare. rewrite (unord_compare f Hf) by apply fmul_pattern. rewrite <- !(unord_iff f Hf).
      unfold fmul. pose proof (inf_pos f Hf).
      assert (DI : decode f (inf_bits f) = DInf false) by apply (decode_with_inf f Hf false).
      rewrite DI, (zero_decode f Hf). assert (DN : decode f (nan_bits f) = DNaN) by apply (decode_nan f Hf).
      destruct (decode f x) as [|s|s m].
      + rewrite DN. auto.
      + cbn [Z.eqb]. rewrite (decode_with_inf f Hf), DN. auto.
      + destruct (m =? 0); [rewrite DN; auto|]. rewrite (decode_with_inf f Hf). cbn [num].
        rewrite (fround_exact f Hf md _ _ (unit f) 0); [auto|apply (HuM f Hf)|destruct s; cbn [num]; ring|].
        exists 0. split; [lia|]. rewrite (mag_small f 0); [auto|fold M; pose proof HM; lia].
  Qed.
  Lemma avx512_ok t md x : pattern f x ->
    frexp_result f (decode f x) (decode f (fst (frexp_avx512 t f md x))) (snd (frexp_avx512 t f md x)).
  Proof.
    intros Hx. unfold frexp_avx512. cbv zeta. cbn [fst snd]. rewrite isnonzero_ok by auto.
    destruct (decode f x) as [|s|s m] eqn:D; try exact D. destruct (Z.eqb_spec m 0) as [E|N]; cbn [negb].
    - unfold frexp_result. rewrite E, D. subst. cbn [Z.eqb]. auto.
    - destruct (exp_range x s m Hx D N) as [R1 R2].
      rewrite (cvt_int_val (getexp f md x) (Z.log2 m - unit f)); auto using (getexp_val md x s m Hx D N).
      set (v := Z.log2 m - unit f) in *.
      assert (E : sgn 32 (uns 32 (1 + v)) = 1 + v).
      { unfold sgn, uns. change (2 ^ 32) with (2 * 2 ^ 31). change (2 ^ (32 - 1)) with (2 ^ 31).
        destruct (Z_lt_le_dec (1 + v) 0).
        - replace ((1 + v) mod (2 * 2 ^ 31)) with (1 + v + 2 * 2 ^ 31) by (symmetry; rewrite <- (Z.mod_add _ 1), Z.mod_small; lia).
          destruct (Z.ltb_spec (1 + v + 2 * 2 ^ 31) (2 ^ 31)); lia.
        - rewrite Z.mod_small by lia. destruct (Z.ltb_spec (1 + v) (2 ^ 31)); lia. }
      rewrite E. unfold v. rewrite <- D. apply (getmant_ok x s m); auto.
  Qed.

  (* ---------------------------------------------------------------- *)
  (* vectors *)
  Definition frexp_one (avx : bool) (t : ftarget) (md : rmode) (x : Z) : Z * Z :=
    if avx then frexp_avx512 t f md x else
    frexp_slow f md (match isnormal_lane t f x with Some b => b | None => false end) x.
  Lemma frexp_vector avx t md xs rs : Forall (pattern f) xs -> frexp_reg avx t f md xs = Some rs ->
    rs = map (frexp_one avx t md) xs /\ (avx = false -> Forall (fun x => isnormal_lane t f x <> None) xs).
  Proof.
    intros HP E. unfold frexp_reg in E. destruct avx.
    { inversion E. split; [reflexivity|discriminate]. }
    unfold frexp_generic in E. destruct (omapm _ xs) as [ns|] eqn:EN; try discriminate.
    assert (K : forall xs ns, omapm (isnormal_lane t f) xs = Some ns ->
      map (fun p => frexp_slow f md (fst p) (snd p)) (combine ns xs) = map (frexp_one false t md) xs /\
      Forall (fun x => isnormal_lane t f x <> None) xs).
    { clear. induction xs as [|x xs IH]; intros ns E; cbn [omapm] in E.
      - inversion E. subst. split; constructor.
      - destruct (isnormal_lane t f x) as [b|] eqn:Ex; try discriminate. destruct (omapm _ xs) as [ns'|]; try discriminate.
        inversion E. subst. destruct (IH ns' eq_refl) as [I1 I2]. cbn [combine map]. split.
        + f_equal; auto. unfold frexp_one. rewrite Ex. auto.
        + constructor; auto. rewrite Ex. discriminate. }
    destruct (K xs ns EN) as [K1 K2]. split; auto.
    destruct (forallb (fun b => b) ns) eqn:EA; inversion E as [H0]; auto. rewrite <- K1.
    clear H0 E K K1 K2. revert ns EN EA. induction xs as [|x xs IH]; intros ns EN EA; cbn [omapm] in EN.
    - inversion EN. auto.
    - destruct (isnormal_lane t f x) as [b|] eqn:Ex; try discriminate. destruct (omapm _ xs) as [ns'|]; try discriminate.
      inversion EN. subst. cbn [forallb] in EA. apply andb_prop in EA. destruct EA as [-> EA].
      inversion HP. subst. cbn [combine map fst snd]. f_equal; auto. apply (fast_slow t); auto.
  Qed.
  Lemma frexp_one_ok avx t md x : pattern f x -> (avx = false -> isnormal_lane t f x <> None) ->
    frexp_result f (decode f x) (decode f (fst (frexp_one avx t md x))) (snd (frexp_one avx t md x)).
  Proof.
    intros Hx HN. unfold frexp_one. destruct avx; [apply avx512_ok; auto|].
    destruct (isnormal_lane t f x) as [b|] eqn:E; [|exfalso; apply HN; auto]. eapply slow_ok; eauto.
  Qed.
End Format.
