(* C55: hypot. *)
From Coq Require Import ZArith List Bool Lia Psatz.
From Verif Require Import Prelude X86Lanes Fixed FloatSpec FloatRoundSpec FloatMathSpec FloatBits FloatArith FloatProofs
  FloatArithProofs FloatRound FloatRoundProofs FloatRoundTop FloatSign FloatTop FloatMath FloatMathProofs FloatFrexp FloatLogb FloatMathTop
  HypotSpec Hypot HypotArith HypotRound HypotScale HypotCore.
Import ListNotations.
Open Scope Z_scope.

Section Format.
  Variable f : fmt.
  Hypothesis Hf : fmt_ok f.
  Hypothesis Hp : 16 <= fp f.
  Hypothesis Hb : 4 * fp f + 8 <= bias f.
  Variable md : rmode.
  Let M := 2 ^ mb f.
  Let P := precision f md.
  Local Notation fin := (fin f).
  Local Notation mag := (mag f).

  Lemma fin_fval x : fin x -> fval f x = Some (mag x).
  Proof. intros H. unfold fval. rewrite (fin_decode f Hf) by auto. reflexivity. Qed.
  Lemma abs_fin x s m : pattern f x -> decode f x = DFin s m -> fin (mag_bits f x) /\ m = mag (mag_bits f x).
  Proof.
    intros Hx D. destruct (decode_fin f Hf x s m Hx D) as (a & Ha & -> & ->).
    pose proof (inf_lt f Hf). rewrite (mag_with_sign f) by lia. auto.
  Qed.
  Lemma abs_inf t x : pattern f x -> isinf_lane t f (mag_bits f x) = is_infinite (decode f x).
  Proof.
    intros Hx. rewrite (isinf_decode f Hf) by apply (pattern_mag f Hf). rewrite !(decode_split f Hf).
    pose proof (mag_bits_bound f Hf x). rewrite (mag_bits_small f (mag_bits f x)) by auto.
    unfold decode_mag. destruct (_ <? _); auto. destruct (_ =? _); auto.
  Qed.
  Lemma minmax a b : fin a -> fin b ->
    (fmax_lane f a b = a /\ fmin_lane f b a = b /\ mag b < mag a) \/ (fmax_lane f a b = b /\ fmin_lane f b a = a /\ mag a <= mag b).
  Proof.
    intros Ha Hb'. unfold fmax_lane, fmin_lane.
    rewrite (fgt_fin f a b (mag a) (mag b)), (flt_fin f b a (mag b) (mag a)) by (apply fin_fval; auto).
    destruct (Z.ltb_spec (mag b) (mag a)); [left|right]; auto.
  Qed.
  Lemma normal_test hi : fin hi -> fge f hi (norm_min_bits f) = (M <=? hi).
  Proof.
    intros Hh. pose proof (M_big f Hp) as HM. fold M in HM. unfold norm_min_bits. fold M.
    assert (FM : fin M) by (split; [lia|]; unfold inf_bits; fold M; rewrite (eb_bias f Hf); pose proof (bias_pos f Hf); nia).
    rewrite (fge_fin f hi M (mag hi) (mag M)) by (apply fin_fval; auto).
    destruct (Z.leb_spec M hi).
    - apply Z.leb_le. apply (mag_le f Hf); lia.
    - apply Z.leb_gt. apply (mag_mono f Hf); auto. destruct Hh; lia.
  Qed.
  Lemma zero_test x : fin x -> feq f x (zero_bits f) = (x =? 0).
  Proof.
    intros Hx. rewrite (feq_fin f x (zero_bits f) (mag x) 0); [|apply fin_fval; auto|apply (zero_val f Hf)].
    destruct (Z.eqb_spec x 0) as [->|N]; [rewrite (mag_0 f Hf); auto|]. apply Z.eqb_neq. intros E. apply N.
    apply (mag_inj f Hf); [destruct Hx; auto|lia|]. rewrite (mag_0 f Hf). auto.
  Qed.

  (* scale and hi_exp of the general path *)
  Definition gscale (hi : Z) : Z :=
    if fge f hi (norm_min_bits f) then fmul f md (Z.lxor (Z.land hi (inf_bits f)) (inf_bits f)) (half_bits f) else inv_norm_min f.
  Definition gexp (hi : Z) : Z := if fge f hi (norm_min_bits f) then Z.land hi (inf_bits f) else norm_min_bits f.
  Lemma gscaling hi : fin hi -> 0 < hi -> scaling f md hi (gexp hi) (gscale hi) (fmul f md hi (gscale hi)).
  Proof.
    intros Hh H0. unfold gscale, gexp. rewrite normal_test by auto. destruct (Z.leb_spec M hi).
    - pose proof (scale_normal f Hf Hp Hb md hi Hh H) as S. cbv zeta in S. rewrite (sc_eq _ _ _ _ _ _ S). exact S.
    - destruct (scale_subnormal f Hf Hp Hb md hi) as (h1 & S); [fold M; lia|]. rewrite (sc_eq _ _ _ _ _ _ S). exact S.
  Qed.
  Lemma gnormal hi : fin hi -> M <= hi ->
    gexp hi = Z.land hi (inf_bits f) /\ gscale hi = fmul f md (Z.lxor (Z.land hi (inf_bits f)) (inf_bits f)) (half_bits f) /\
    Z.lor (Z.land hi (mant_mask f)) (one_bits f) = fmul f md hi (gscale hi).
  Proof.
    intros Hh L. unfold gscale, gexp. rewrite normal_test by auto. destruct (Z.leb_spec M hi); [|lia]. split; auto. split; auto.
    pose proof (scale_normal f Hf Hp Hb md hi Hh L) as S. cbv zeta in S. rewrite (sc_eq _ _ _ _ _ _ S).
    pose proof (M_big f Hp) as HM. fold M in HM. pose proof (Z.mod_pos_bound hi M ltac:(lia)) as B.
    rewrite (Z.div_mod hi M) at 1 by lia. rewrite (Z.mul_comm M). apply (mant_one f Hf Hp); auto.
  Qed.

  (* ---------------------------------------------------------------- *)
  (* two arguments *)
  Definition core2 (c : contraction) (hi lo : Z) : Z :=
    fmul f md (gexp hi) (fsqrt f md (sum_squares c f md (fmul f md hi (gscale hi)) (fmul f md lo (gscale hi)))).
  Lemma slow_fin c t x y s m s' m' : pattern f x -> pattern f y -> decode f x = DFin s m -> decode f y = DFin s' m' ->
    let a := mag_bits f x in let b := mag_bits f y in
    exists hi lo, (hi = a /\ lo = b \/ hi = b /\ lo = a) /\ fin hi /\ fin lo /\ mag lo <= mag hi /\
      hypot_slow c t f md x y = (if lo =? 0 then hi else core2 c hi lo).
  Proof.
    intros Hx Hy Dx Dy. cbv zeta. destruct (abs_fin x s m Hx Dx) as [Fa _]. destruct (abs_fin y s' m' Hy Dy) as [Fb _].
    set (a := mag_bits f x) in *. set (b := mag_bits f y) in *.
    exists (fmax_lane f a b), (fmin_lane f b a).
    assert (E : fin (fmax_lane f a b) /\ fin (fmin_lane f b a) /\ mag (fmin_lane f b a) <= mag (fmax_lane f a b) /\
      (fmax_lane f a b = a /\ fmin_lane f b a = b \/ fmax_lane f a b = b /\ fmin_lane f b a = a)).
    { destruct (minmax a b Fa Fb) as [(-> & -> & ?)|(-> & -> & ?)]; (split; [auto|split; [auto|split; [lia|auto]]]). }
    destruct E as (Fh & Fl & L & O). split; auto. split; auto. split; auto. split; auto.
    unfold hypot_slow. rewrite !(fabs_val f Hf). fold a b. cbv zeta.
    rewrite (isunordered_ok f Hf) by auto. unfold a, b. rewrite !abs_inf by auto. fold a b. rewrite Dx, Dy. cbn [ieee_compare is_infinite orb].
    rewrite zero_test by auto. fold (gscale (fmax_lane f a b)) (gexp (fmax_lane f a b)).
    rewrite !orb_false_r. destruct (_ =? 0); auto.
  Qed.
  Lemma slow_special c t x y : pattern f x -> pattern f y ->
    (is_infinite (decode f x) || is_infinite (decode f y) = true -> hypot_slow c t f md x y = inf_bits f) /\
    (is_infinite (decode f x) || is_infinite (decode f y) = false ->
     is_not_a_number (decode f x) || is_not_a_number (decode f y) = true -> hypot_slow c t f md x y = nan_bits f).
  Proof.
    intros Hx Hy. unfold hypot_slow. rewrite !(fabs_val f Hf). cbv zeta. rewrite !abs_inf by auto.
    rewrite (isunordered_ok f Hf) by auto. split.
    - intros ->. rewrite !orb_true_r. reflexivity.
    - intros -> N. assert (U : match ieee_compare (decode f x) (decode f y) with None => true | Some _ => false end = true).
      { destruct (decode f x); destruct (decode f y); cbn in *; auto; discriminate. }
      rewrite U. rewrite orb_true_r. reflexivity.
  Qed.
  Lemma nan_decode : decode f (nan_bits f) = DNaN. Proof. apply (decode_nan f Hf). Qed.
  Lemma inf_decode : decode f (inf_bits f) = DInf false. Proof. apply (decode_with_inf f Hf false). Qed.

  Lemma finite_datum d : is_infinite d = false -> is_not_a_number d = false -> exists s m, d = DFin s m.
  Proof. destruct d; try discriminate. eauto. Qed.
  Lemma hypot_slow_ok c t x y : pattern f x -> pattern f y ->
    hypot_result f md 5 2 [decode f x; decode f y] (decode f (hypot_slow c t f md x y)).
  Proof.
    intros Hx Hy. destruct (slow_special c t x y Hx Hy) as [SI SN].
    unfold hypot_result. cbn [existsb]. rewrite !orb_false_r.
    destruct (is_infinite (decode f x) || is_infinite (decode f y)) eqn:I; [rewrite SI by auto; apply inf_decode|].
    destruct (is_not_a_number (decode f x) || is_not_a_number (decode f y)) eqn:N; [rewrite SN by auto; apply nan_decode|].
    clear SI SN. cbv zeta. apply orb_false_iff in I, N. destruct I as [I1 I2]. destruct N as [N1 N2].
    destruct (finite_datum _ I1 N1) as (s & m & Dx). destruct (finite_datum _ I2 N2) as (s' & m' & Dy).
    destruct (slow_fin c t x y s m s' m' Hx Hy Dx Dy) as (hi & lo & O & Fh & Fl & L & E). cbv zeta in *. rewrite E.
    destruct (abs_fin x s m Hx Dx) as [_ Em]. destruct (abs_fin y s' m' Hy Dy) as [_ Em'].
    assert (ES : sum_of_squares [decode f x; decode f y] = mag hi * mag hi + mag lo * mag lo).
    { rewrite Dx, Dy. unfold sum_of_squares. cbn [map square fold_right]. rewrite Em, Em'.
      destruct O as [[-> ->]|[-> ->]]; lia. }
    rewrite ES. destruct (Z.eqb_spec lo 0) as [->|Nz].
    - left. exists (mag hi). split; [apply (fin_decode f Hf); auto|]. left. rewrite (mag_0 f Hf).
      replace (mag hi * mag hi - (mag hi * mag hi + 0 * 0)) with 0 by lia. change (Z.abs 0) with 0. nia.
    - assert (H0 : 0 < hi).
      { destruct Fh, Fl. destruct (Z.eq_dec hi 0) as [->|]; [exfalso|lia]. rewrite (mag_0 f Hf) in L.
        pose proof (mag_mono f Hf 0 lo). rewrite (mag_0 f Hf) in H3. lia. }
      exact (hypot2_ok f Hf Hp Hb md c hi _ _ _ lo (gscaling hi Fh H0) Fh Fl L).
  Qed.
  (* the path for normal numbers gives the same result *)
  Lemma fast_is_slow c t x y : pattern f x -> pattern f y ->
    isnormal_lane t f x = Some true -> isnormal_lane t f y = Some true -> hypot_fast c f md x y = hypot_slow c t f md x y.
  Proof.
    intros Hx Hy Ex Ey. pose proof (M_big f Hp) as HM. fold M in HM.
    apply (isnormal_decode f Hf) in Ex, Ey; auto. fold M in Ex, Ey.
    destruct (decode f x) as [|?|s m] eqn:Dx; try discriminate. destruct (decode f y) as [|?|s' m'] eqn:Dy; try discriminate.
    symmetry in Ex, Ey. apply Z.leb_le in Ex, Ey.
    destruct (abs_fin x s m Hx Dx) as [Fa Ea]. destruct (abs_fin y s' m' Hy Dy) as [Fb Eb].
    assert (NB : forall a, fin a -> M <= mag a -> M <= a).
    { intros a Fa' La. destruct (Z_le_gt_dec M a); auto. exfalso. rewrite (mag_small f a) in La by (fold M; destruct Fa'; lia). lia. }
    rewrite Ea in Ex. rewrite Eb in Ey. apply NB in Ex; auto. apply NB in Ey; auto.
    unfold hypot_fast, hypot_slow. rewrite !(fabs_val f Hf). cbv zeta. rewrite !abs_inf by auto.
    rewrite (isunordered_ok f Hf) by auto. rewrite Dx, Dy. cbn [ieee_compare is_infinite orb]. rewrite !orb_false_r.
    assert (HL : exists hi lo, fmax_lane f (mag_bits f x) (mag_bits f y) = hi /\ fmin_lane f (mag_bits f y) (mag_bits f x) = lo /\
      fin hi /\ fin lo /\ M <= hi /\ M <= lo).
    { destruct (minmax _ _ Fa Fb) as [(-> & -> & _)|(-> & -> & _)]; do 2 eexists; repeat split; auto; try (destruct Fa, Fb; auto; lia). }
    destruct HL as (hi & lo & -> & -> & Fh & Fl & Lh & Ll). rewrite zero_test by auto. destruct (Z.eqb_spec lo 0); [lia|]. cbn [negb].
    destruct (gnormal hi Fh Lh) as (G1 & G2 & G3). unfold gexp in G1. rewrite G1. rewrite G3. unfold gscale in *. rewrite G2. auto.
  Qed.
  (* exactly symmetric *)
  Lemma slow_comm c t x y : pattern f x -> pattern f y -> hypot_slow c t f md x y = hypot_slow c t f md y x.
  Proof.
    intros Hx Hy. destruct (slow_special c t x y Hx Hy) as [SI SN]. destruct (slow_special c t y x Hy Hx) as [SI' SN'].
    rewrite (orb_comm (is_infinite (decode f y))) in SI', SN'. rewrite (orb_comm (is_not_a_number (decode f y))) in SN'.
    destruct (is_infinite (decode f x) || is_infinite (decode f y)) eqn:I; [rewrite SI, SI'; auto|].
    destruct (is_not_a_number (decode f x) || is_not_a_number (decode f y)) eqn:N; [rewrite SN, SN'; auto|].
    clear SI SN SI' SN'. apply orb_false_iff in I, N. destruct I as [I1 I2]. destruct N as [N1 N2].
    destruct (finite_datum _ I1 N1) as (s & m & Dx). destruct (finite_datum _ I2 N2) as (s' & m' & Dy).
    destruct (slow_fin c t x y s m s' m' Hx Hy Dx Dy) as (hi & lo & O & Fh & Fl & L & E). cbv zeta in *. rewrite E.
    destruct (slow_fin c t y x s' m' s m Hy Hx Dy Dx) as (hi' & lo' & O' & Fh' & Fl' & L' & E'). cbv zeta in *. rewrite E'.
    assert (K : hi = hi' /\ lo = lo'); [|destruct K; subst; auto].
    assert (INJ : mag hi = mag lo -> hi = lo) by (intros; apply (mag_inj f Hf); destruct Fh, Fl; auto).
    destruct O as [[-> ->]|[-> ->]]; destruct O' as [[-> ->]|[-> ->]]; auto;
      assert (XE : mag (mag_bits f x) = mag (mag_bits f y)) by lia; rewrite INJ by lia; auto.
  Qed.
  (* exact if one argument is zero *)
  Lemma slow_zero c t x y s m s' : pattern f x -> pattern f y -> decode f x = DFin s m -> decode f y = DFin s' 0 ->
    hypot_slow c t f md x y = mag_bits f x.
  Proof.
    intros Hx Hy Dx Dy. destruct (slow_fin c t x y s m s' 0 Hx Hy Dx Dy) as (hi & lo & O & Fh & Fl & L & E). cbv zeta in *. rewrite E.
    destruct (abs_fin y s' 0 Hy Dy) as [Fb Eb].
    assert (B0 : mag_bits f y = 0).
    { apply (mag_inj f Hf); [destruct Fb; auto|lia|]. rewrite (mag_0 f Hf). auto. }
    rewrite B0 in O. destruct O as [[-> ->]|[-> ->]]; auto.
    destruct (Z.eqb_spec (mag_bits f x) 0) as [->|N]; auto. exfalso. apply N. apply (mag_inj f Hf); [destruct Fl; auto|lia|].
    rewrite (mag_0 f Hf) in *. pose proof (fin_mag_nonneg f Hf _ Fl). lia.
  Qed.

  (* ---------------------------------------------------------------- *)
  (* three arguments *)
  Definition lo3 (c : contraction) (hi l0 l1 : Z) : Z := sum_squares c f md (fmul f md l0 (gscale hi)) (fmul f md l1 (gscale hi)).
  Definition core3 (c : contraction) (fused : bool) (hi l0 l1 : Z) : Z :=
    fmul f md (gexp hi) (fsqrt f md (add_square fused f md (lo3 c hi l0 l1) (fmul f md hi (gscale hi)))).
  Lemma minmax3 a b d : fin a -> fin b -> fin d ->
    let hi := fmax_lane f (fmax_lane f a b) d in let l0 := fmin_lane f d (fmax_lane f a b) in let l1 := fmin_lane f b a in
    fin hi /\ fin l0 /\ fin l1 /\ mag l0 <= mag hi /\ mag l1 <= mag hi /\
    mag hi * mag hi + (mag l0 * mag l0 + mag l1 * mag l1) = mag a * mag a + (mag b * mag b + mag d * mag d) /\
    (forall Q : Z -> Prop, Q a -> Q b -> Q d -> Q hi).
  Proof.
    intros Fa Fb Fd. cbv zeta.
    destruct (minmax a b Fa Fb) as [(-> & -> & ?)|(-> & -> & ?)].
    - destruct (minmax a d Fa Fd) as [(-> & -> & ?)|(-> & -> & ?)]; repeat match goal with |- _ /\ _ => split end; auto; try lia; apply Fa || apply Fb || apply Fd.
    - destruct (minmax b d Fb Fd) as [(-> & -> & ?)|(-> & -> & ?)]; repeat match goal with |- _ /\ _ => split end; auto; try lia; apply Fa || apply Fb || apply Fd.
  Qed.
  Lemma add_nan y z : is_infinite (decode f y) || is_infinite (decode f z) = false ->
    is_not_a_number (decode f (fadd f md y z)) = is_not_a_number (decode f y) || is_not_a_number (decode f z).
  Proof.
    intros I. apply orb_false_iff in I. destruct I as [I1 I2]. unfold fadd.
    destruct (decode f y) as [|?|s m]; destruct (decode f z) as [|?|s' m']; try discriminate; try (rewrite nan_decode; reflexivity).
    cbn [is_not_a_number orb]. unfold fround. destruct (_ =? 0).
    - rewrite (decode_with_sign f Hf); [reflexivity|]. pose proof (inf_pos f Hf). lia.
    - set (r := round_bits _ _ _ _ _). assert (B : 0 <= r <= inf_bits f) by (apply (round_bits_range f Hf); lia).
      destruct (Z.eq_dec r (inf_bits f)) as [->|]; [rewrite (decode_with_inf f Hf); reflexivity|].
      rewrite (decode_with_sign f Hf) by lia. reflexivity.
  Qed.
  Lemma unord_nan t x y : pattern f x -> pattern f y -> isunordered_lane t f x y = is_not_a_number (decode f x) || is_not_a_number (decode f y).
  Proof.
    intros Hx Hy. rewrite (isunordered_ok f Hf) by auto. destruct (decode f x); destruct (decode f y); auto.
  Qed.
  Lemma sum_squares_0 c : sum_squares c f md 0 0 = 0.
  Proof.
    assert (M0 : fmul f md 0 0 = 0).
    { rewrite (fmul_fin f Hf) by apply (fin_0 f Hf). rewrite (mag_0 f Hf). apply (round_0 f Hf). apply (unit_nonneg f Hf). }
    destruct c; cbn [sum_squares]; rewrite M0.
    - rewrite (fadd_fin f Hf) by apply (fin_0 f Hf). rewrite (mag_0 f Hf). apply (round_0 f Hf). lia.
    - rewrite (ffma_fin f Hf) by apply (fin_0 f Hf). rewrite (mag_0 f Hf). apply (round_0 f Hf). apply (unit_nonneg f Hf).
    - rewrite (ffma_fin f Hf) by apply (fin_0 f Hf). rewrite (mag_0 f Hf). apply (round_0 f Hf). apply (unit_nonneg f Hf).
  Qed.
  Lemma fmul_0 s : fin s -> fmul f md 0 s = 0.
  Proof.
    intros. rewrite (fmul_fin f Hf) by (auto; apply (fin_0 f Hf)). rewrite (mag_0 f Hf). apply (round_0 f Hf). apply (unit_nonneg f Hf).
  Qed.
  Lemma gscale_0 : fin (gscale 0).
  Proof.
    unfold gscale. rewrite normal_test by apply (fin_0 f Hf). pose proof (M_big f Hp) as HM. fold M in HM.
    destruct (Z.leb_spec M 0); [lia|]. destruct (scale_subnormal f Hf Hp Hb md 1) as (h1 & S); [fold M; lia|]. apply (sc_s _ _ _ _ _ _ S).
  Qed.
  Lemma fin_zero_mag a : fin a -> mag a = 0 -> a = 0.
  Proof. intros [A ?] E. apply (mag_inj f Hf); auto; [lia|]. rewrite (mag_0 f Hf). auto. Qed.
  Lemma mag_pos a : fin a -> 0 < mag a -> 0 < a.
  Proof. intros [A ?] E. destruct (Z.eq_dec a 0) as [->|]; [|lia]. rewrite (mag_0 f Hf) in E. lia. Qed.

  (* whether or not the sum of the smaller squares is zero *)
  Lemma core3_ok c fused hi l0 l1 (zero : bool) : fin hi -> fin l0 -> fin l1 -> mag l0 <= mag hi -> mag l1 <= mag hi -> zero = true \/ 0 < hi ->
    let S := mag hi * mag hi + (mag l0 * mag l0 + mag l1 * mag l1) in
    let r := if zero && feq f (lo3 c hi l0 l1) (zero_bits f) then hi else core3 c fused hi l0 l1 in
    (exists m, decode f r = DFin false m /\ close f md 6 3 m S) \/
    (P * (max_num f * max_num f) < (P + 6) * S /\ (decode f r = DInf false \/ decode f r = DFin false (max_num f))).
  Proof.
    intros Fh F0 F1 L0 L1 Z0. cbv zeta. destruct (Z.eq_dec hi 0) as [->|Nz].
    - destruct Z0 as [->|]; [|lia]. rewrite (mag_0 f Hf) in *. pose proof (fin_mag_nonneg f Hf _ F0). pose proof (fin_mag_nonneg f Hf _ F1).
      assert (l0 = 0) by (apply fin_zero_mag; auto; lia). assert (l1 = 0) by (apply fin_zero_mag; auto; lia). subst.
      unfold lo3. rewrite !(fmul_0 _ gscale_0), sum_squares_0. rewrite zero_test by apply (fin_0 f Hf). cbn [Z.eqb andb].
      left. exists 0. split; [rewrite (fin_decode f Hf) by apply (fin_0 f Hf); rewrite (mag_0 f Hf); auto|].
      left. rewrite (mag_0 f Hf). cbn. lia.
    - assert (H0 : 0 < hi) by (destruct Fh; lia).
      destruct (hypot3_ok f Hf Hp Hb md c fused hi _ _ _ l0 l1 (gscaling hi Fh H0) Fh F0 F1 L0 L1) as (Fl & R & RZ). cbv zeta in *.
      fold (lo3 c hi l0 l1) in *. destruct zero; cbn [andb]; [|exact R].
      rewrite zero_test by auto. destruct (Z.eqb_spec (lo3 c hi l0 l1) 0) as [E|]; [|exact R].
      left. exists (mag hi). split; [apply (fin_decode f Hf); auto|]. left. apply RZ. rewrite E. apply (mag_0 f Hf).
  Qed.
  Lemma slow3_eq c fused t x y z : hypot3_slow c fused t f md x y z =
    let a := fabs_lane f x in let b := fabs_lane f y in let d := fabs_lane f z in
    let hi := fmax_lane f (fmax_lane f a b) d in let l0 := fmin_lane f d (fmax_lane f a b) in let l1 := fmin_lane f b a in
    if isinf_lane t f a || isinf_lane t f b || isinf_lane t f d then inf_bits f
    else if isunordered_lane t f x (fadd f md y z) then nan_bits f
    else if true && feq f (lo3 c hi l0 l1) (zero_bits f) then hi else core3 c fused hi l0 l1.
  Proof.
    unfold hypot3_slow, core3, lo3, gscale, gexp. cbv zeta.
    generalize (isinf_lane t f (fabs_lane f x) || isinf_lane t f (fabs_lane f y) || isinf_lane t f (fabs_lane f z)). intros i.
    generalize (isunordered_lane t f x (fadd f md y z)). intros u.
    match goal with |- (if negb (?q || _ || _) then ?r else _) = _ => generalize r; generalize q end. intros q r.
    destruct i, u, q; reflexivity.
  Qed.
  Lemma sum3 a b d s s' s'' : sum_of_squares [DFin s a; DFin s' b; DFin s'' d] = a * a + (b * b + d * d).
  Proof. unfold sum_of_squares. cbn [map square fold_right]. lia. Qed.
  Lemma hypot3_slow_ok c fused t x y z : pattern f x -> pattern f y -> pattern f z ->
    hypot_result f md 6 3 [decode f x; decode f y; decode f z] (decode f (hypot3_slow c fused t f md x y z)).
  Proof.
    intros Hx Hy Hz. rewrite slow3_eq. cbv zeta. rewrite !(fabs_val f Hf), !abs_inf by auto.
    unfold hypot_result. cbn [existsb]. rewrite !orb_false_r, !orb_assoc.
    destruct (is_infinite (decode f x) || is_infinite (decode f y) || is_infinite (decode f z)) eqn:EI; [apply inf_decode|].
    apply orb_false_iff in EI. destruct EI as [EI I3]. apply orb_false_iff in EI. destruct EI as [I1 I2].
    rewrite unord_nan by (auto; apply (fadd_pattern f Hf)). rewrite add_nan by (rewrite I2, I3; auto). rewrite orb_assoc.
    destruct (is_not_a_number (decode f x) || is_not_a_number (decode f y) || is_not_a_number (decode f z)) eqn:EN; [apply nan_decode|].
    apply orb_false_iff in EN. destruct EN as [EN N3]. apply orb_false_iff in EN. destruct EN as [N1 N2].
    destruct (finite_datum _ I1 N1) as (s & m & Dx). destruct (finite_datum _ I2 N2) as (s' & m' & Dy).
    destruct (finite_datum _ I3 N3) as (s'' & m'' & Dz).
    destruct (abs_fin x s m Hx Dx) as [Fa Ea]. destruct (abs_fin y s' m' Hy Dy) as [Fb Eb]. destruct (abs_fin z s'' m'' Hz Dz) as [Fd Ed].
    rewrite Dx, Dy, Dz, sum3, Ea, Eb, Ed.
    destruct (minmax3 _ _ _ Fa Fb Fd) as (Fh & F0 & F1 & L0 & L1 & E & _). cbv zeta in Fh, F0, F1, L0, L1, E. rewrite <- E.
    exact (core3_ok c fused _ _ _ true Fh F0 F1 L0 L1 (or_introl eq_refl)).
  Qed.
  Lemma fast3_eq c fused x y z a b d : fabs_lane f x = a -> fabs_lane f y = b -> fabs_lane f z = d ->
    fin (fmax_lane f (fmax_lane f a b) d) -> M <= fmax_lane f (fmax_lane f a b) d ->
    hypot3_fast c fused f md x y z = core3 c fused (fmax_lane f (fmax_lane f a b) d) (fmin_lane f d (fmax_lane f a b)) (fmin_lane f b a).
  Proof.
    intros Ea Eb Ed Fh Q. unfold hypot3_fast. rewrite Ea, Eb, Ed. cbv zeta. destruct (gnormal _ Fh Q) as (G1 & G2 & G3).
    unfold core3, lo3. rewrite <- G3, G2, G1. reflexivity.
  Qed.
  Lemma core3_ok_fast c fused hi l0 l1 : fin hi -> fin l0 -> fin l1 -> mag l0 <= mag hi -> mag l1 <= mag hi -> 0 < hi ->
    let S := mag hi * mag hi + (mag l0 * mag l0 + mag l1 * mag l1) in
    let r := core3 c fused hi l0 l1 in
    (exists m, decode f r = DFin false m /\ close f md 6 3 m S) \/
    (P * (max_num f * max_num f) < (P + 6) * S /\ (decode f r = DInf false \/ decode f r = DFin false (max_num f))).
  Proof. intros Fh F0 F1 L0 L1 H0. exact (core3_ok c fused hi l0 l1 false Fh F0 F1 L0 L1 (or_intror H0)). Qed.
  Lemma hypot3_fast_ok c fused t x y z : pattern f x -> pattern f y -> pattern f z ->
    isnormal_lane t f x = Some true -> isnormal_lane t f y = Some true -> isnormal_lane t f z = Some true ->
    hypot_result f md 6 3 [decode f x; decode f y; decode f z] (decode f (hypot3_fast c fused f md x y z)).
  Proof.
    intros Hx Hy Hz Ex Ey Ez. pose proof (M_big f Hp) as HM. fold M in HM. assert (HM0 : 0 < M) by lia.
    apply (isnormal_decode f Hf) in Ex, Ey, Ez; auto. fold M in Ex, Ey, Ez.
    destruct (decode f x) as [|?|s m] eqn:Dx; try discriminate. destruct (decode f y) as [|?|s' m'] eqn:Dy; try discriminate.
    destruct (decode f z) as [|?|s'' m''] eqn:Dz; try discriminate.
    symmetry in Ex, Ey, Ez. apply Z.leb_le in Ex, Ey, Ez.
    destruct (abs_fin x s m Hx Dx) as [Fa Ea]. destruct (abs_fin y s' m' Hy Dy) as [Fb Eb]. destruct (abs_fin z s'' m'' Hz Dz) as [Fd Ed].
    assert (NB : forall a, fin a -> M <= mag a -> M <= a).
    { intros a Fa' La. destruct (Z_le_gt_dec M a); auto. exfalso. rewrite (mag_small f a) in La by (fold M; destruct Fa'; lia). lia. }
    rewrite Ea in Ex. rewrite Eb in Ey. rewrite Ed in Ez. apply NB in Ex; auto. apply NB in Ey; auto. apply NB in Ez; auto.
    unfold hypot_result. cbn [existsb is_infinite is_not_a_number orb]. rewrite sum3, Ea, Eb, Ed.
    destruct (minmax3 _ _ _ Fa Fb Fd) as (Fh & F0 & F1 & L0 & L1 & E & Q). cbv zeta in Fh, F0, F1, L0, L1, E, Q. rewrite <- E.
    specialize (Q (fun a => M <= a) Ex Ey Ez). cbv beta in Q.
    rewrite (fast3_eq c fused x y z _ _ _ (fabs_val f Hf x) (fabs_val f Hf y) (fabs_val f Hf z) Fh Q).
    exact (core3_ok_fast c fused _ _ _ Fh F0 F1 L0 L1 (Z.lt_le_trans _ _ _ HM0 Q)).
  Qed.
End Format.

(* ------------------------------------------------------------------ *)
(* whole vectors *)
Definition hypot_fmt (f : fmt) : Prop := f = binary32 \/ f = binary64.
Lemma hypot_fmt_ok f : hypot_fmt f -> fmt_ok f /\ 16 <= fp f /\ 4 * fp f + 8 <= bias f.
Proof. intros [-> | ->]; (split; [first [apply ok32|apply ok64]|]); cbn; lia. Qed.

Lemma normals_some t f xs : target_ok t /\ dq_ok t ->
  exists ns, omapm (isnormal_lane t f) xs = Some ns /\ forall i x, nth_error xs i = Some x -> exists b, nth_error ns i = Some b /\ isnormal_lane t f x = Some b.
Proof.
  intros [T D]. induction xs as [|x xs (ns & E & IH)]; [exists []; split; auto; intros [|] ? H; discriminate H|].
  cbn [omapm]. rewrite E. pose proof (isnormal_total t f x T D). destruct (isnormal_lane t f x) as [b|] eqn:EX; [|congruence].
  exists (b :: ns). split; auto. intros [|i] a Ha; cbn in *; [|eauto]. inversion Ha; subst. eauto.
Qed.
Lemma nth_combine {A B} : forall (l : list A) (m : list B) i a b, nth_error l i = Some a -> nth_error m i = Some b -> nth_error (combine l m) i = Some (a, b).
Proof. induction l; intros [|b0 m] [|i] a0 b Ha Hb; try discriminate; cbn in *; [congruence|auto]. Qed.

(* two arguments: the general path for every element *)
Lemma hypot_reg_is c t f md x y : hypot_fmt f -> target_ok t /\ dq_ok t -> Forall (pattern f) x -> Forall (pattern f) y -> length x = length y ->
  hypot_reg c t f md x y = Some (map (fun p => hypot_slow c t f md (fst p) (snd p)) (combine x y)).
Proof.
  intros Hr HT HX HY L. destruct (hypot_fmt_ok f Hr) as (Hf & Hp & Hb). unfold hypot_reg.
  destruct (normals_some t f x HT) as (nx & -> & NX). destruct (normals_some t f y HT) as (ny & -> & NY).
  destruct (forallb (fun b => b) nx) eqn:AX; cbn [andb]; auto. destruct (forallb (fun b => b) ny) eqn:AY; auto.
  f_equal. apply map_ext_in. intros [a b] Hin. cbn [fst snd]. destruct (In_nth_error _ _ Hin) as [i Hi].
  assert (HA : nth_error x i = Some a /\ nth_error y i = Some b).
  { clear - Hi. revert y i Hi. induction x as [|x0 x IH]; intros [|y0 y] [|i] Hi; try discriminate; cbn in *; [inversion Hi; auto|auto]. }
  destruct HA as [Ha Hb']. rewrite Forall_forall in HX, HY.
  destruct (NX i a Ha) as (p & P1 & P2). destruct (NY i b Hb') as (q & Q1 & Q2).
  rewrite (forallb_nth _ i p AX P1) in P2. rewrite (forallb_nth _ i q AY Q1) in Q2.
  apply (fast_is_slow f Hf Hp Hb); auto; [apply HX|apply HY]; eapply nth_error_In; eauto.
Qed.
Lemma c55_hypot c t f md x y : hypot_fmt f -> target_ok t /\ dq_ok t -> Forall (pattern f) x -> Forall (pattern f) y -> length x = length y ->
  exists r, hypot_reg c t f md x y = Some r /\ length r = length x /\
    forall i a b, nth_error x i = Some a -> nth_error y i = Some b ->
      exists v, nth_error r i = Some v /\ hypot_result f md 5 2 [decode f a; decode f b] (decode f v).
Proof.
  intros Hr HT HX HY L. destruct (hypot_fmt_ok f Hr) as (Hf & Hp & Hb). rewrite hypot_reg_is by auto. eexists. split; [reflexivity|].
  split; [rewrite map_length, combine_length; lia|]. intros i a b Ha Hb'.
  exists (hypot_slow c t f md a b). split; [erewrite nth_map_combine by eauto; reflexivity|].
  rewrite Forall_forall in HX, HY. apply (hypot_slow_ok f Hf Hp Hb); [apply HX|apply HY]; eapply nth_error_In; eauto.
Qed.
Lemma c55_symmetric c t f md x y : hypot_fmt f -> target_ok t /\ dq_ok t -> Forall (pattern f) x -> Forall (pattern f) y -> length x = length y ->
  hypot_reg c t f md x y = hypot_reg c t f md y x.
Proof.
  intros Hr HT HX HY L. destruct (hypot_fmt_ok f Hr) as (Hf & Hp & Hb). rewrite !hypot_reg_is by auto. f_equal.
  revert y HY L. induction HX as [|a x Ha HX IH]; intros [|b y] HY L; try discriminate; auto. inversion HY; subst. cbn [combine map fst snd]. f_equal.
  - apply (slow_comm f Hf md); auto.
  - apply IH; auto.
Qed.
Lemma c55_independent c t f md x y x' y' r r' i j : hypot_fmt f -> target_ok t /\ dq_ok t ->
  Forall (pattern f) x -> Forall (pattern f) y -> length x = length y -> Forall (pattern f) x' -> Forall (pattern f) y' -> length x' = length y' ->
  hypot_reg c t f md x y = Some r -> hypot_reg c t f md x' y' = Some r' ->
  nth_error x i = nth_error x' j -> nth_error y i = nth_error y' j -> nth_error r i = nth_error r' j.
Proof.
  intros Hr HT HX HY L HX' HY' L' E E' EX EY. rewrite hypot_reg_is in E, E' by auto. inversion E. inversion E'. clear E E'. subst r r'.
  rewrite !nth_error_map. f_equal.
  destruct (nth_error x i) as [a|] eqn:A.
  - destruct (nth_error y i) as [b|] eqn:B; [|apply nth_error_None in B; assert (nth_error x i = None) by (apply nth_error_None; lia); congruence].
    rewrite (nth_combine x y i a b), (nth_combine x' y' j a b) by auto. auto.
  - symmetry in EX. apply nth_error_None in A, EX.
    replace (nth_error (combine x y) i) with (@None (Z * Z)) by (symmetry; apply nth_error_None; rewrite combine_length; lia).
    symmetry. apply nth_error_None. rewrite combine_length. lia.
Qed.
Lemma c55_zero c t f md x y : hypot_fmt f -> target_ok t /\ dq_ok t -> Forall (pattern f) x -> Forall (pattern f) y -> length x = length y ->
  forall i a b s m s', nth_error x i = Some a -> nth_error y i = Some b -> decode f a = DFin s m -> decode f b = DFin s' 0 ->
    exists r v, hypot_reg c t f md x y = Some r /\ nth_error r i = Some v /\ pattern f v /\ decode f v = DFin false m.
Proof.
  intros Hr HT HX HY L i a b s m s' Ha Hb' Da Db. destruct (hypot_fmt_ok f Hr) as (Hf & Hp & Hb). rewrite hypot_reg_is by auto.
  do 2 eexists. split; [reflexivity|]. split; [erewrite nth_map_combine by eauto; reflexivity|]. cbn [fst snd].
  rewrite Forall_forall in HX, HY. assert (Pa : pattern f a) by (apply HX; eapply nth_error_In; eauto).
  assert (Pb : pattern f b) by (apply HY; eapply nth_error_In; eauto).
  rewrite (slow_zero f Hf md c t a b s m s') by auto. split; [apply (pattern_mag f Hf)|].
  destruct (abs_fin f Hf md a s m Pa Da) as [Fa ->]. apply (fin_decode f Hf). auto.
Qed.
(* three arguments *)
Lemma c55_hypot3 c fused t f md x y z : hypot_fmt f -> target_ok t /\ dq_ok t ->
  Forall (pattern f) x -> Forall (pattern f) y -> Forall (pattern f) z -> length x = length y -> length y = length z ->
  exists r, hypot3_reg c fused t f md x y z = Some r /\ length r = length x /\
    forall i a b d, nth_error x i = Some a -> nth_error y i = Some b -> nth_error z i = Some d ->
      exists v, nth_error r i = Some v /\ hypot_result f md 6 3 [decode f a; decode f b; decode f d] (decode f v).
Proof.
  intros Hr HT HX HY HZ L L2. destruct (hypot_fmt_ok f Hr) as (Hf & Hp & Hb). unfold hypot3_reg.
  destruct (normals_some t f x HT) as (nx & -> & NX). destruct (normals_some t f y HT) as (ny & -> & NY). destruct (normals_some t f z HT) as (nz & -> & NZ).
  rewrite Forall_forall in HX, HY, HZ.
  destruct (forallb (fun b => b) nx && forallb (fun b => b) ny && forallb (fun b => b) nz) eqn:A.
  - apply andb_true_iff in A. destruct A as [A AZ]. apply andb_true_iff in A. destruct A as [AX AY].
    eexists. split; [reflexivity|]. split; [rewrite map_length, !combine_length; lia|]. intros i a b d Ha Hb' Hd.
    eexists. split; [erewrite nth_map_combine; [reflexivity|eassumption|eapply nth_combine; eassumption]|]. cbn [fst snd].
    destruct (NX i a Ha) as (p & P1 & P2). destruct (NY i b Hb') as (q & Q1 & Q2). destruct (NZ i d Hd) as (w & W1 & W2).
    rewrite (forallb_nth _ i p AX P1) in P2. rewrite (forallb_nth _ i q AY Q1) in Q2. rewrite (forallb_nth _ i w AZ W1) in W2.
    apply (hypot3_fast_ok f Hf Hp Hb md c fused t); auto; [apply HX|apply HY|apply HZ]; eapply nth_error_In; eauto.
  - eexists. split; [reflexivity|]. split; [rewrite map_length, !combine_length; lia|]. intros i a b d Ha Hb' Hd.
    eexists. split; [erewrite nth_map_combine; [reflexivity|eassumption|eapply nth_combine; eassumption]|]. cbn [fst snd].
    apply (hypot3_slow_ok f Hf Hp Hb md c fused t); [apply HX|apply HY|apply HZ]; eapply nth_error_In; eauto.
Qed.
