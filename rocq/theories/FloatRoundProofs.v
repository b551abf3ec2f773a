(* The rounding functions return the integer they should. *)
From Coq Require Import ZArith List Bool Lia Psatz.
From Verif Require Import Prelude X86Lanes FloatSpec FloatRoundSpec FloatBits FloatArith FloatProofs FloatArithProofs FloatRound.
Import ListNotations.
Open Scope Z_scope.

(* ------------------------------------------------------------------ *)
(* rounding m >= 0 with sign s *)
Lemma round_int_spec md s m k : 0 <= k -> 0 <= m -> rounded_to md (2 ^ k) (num s m) (num s (round_int md s m k)).
Proof.
  intros Hk Hm. assert (P : 0 < 2 ^ k) by (apply Z.pow_pos_nonneg; lia).
  pose proof (Z.div_mod m (2 ^ k) ltac:(lia)) as E. pose proof (Z.mod_pos_bound m (2 ^ k) P) as B.
  unfold round_int. set (u := 2 ^ k) in *. set (q := m / u) in *.
  assert (EV : forall z, Z.odd z = false -> Z.Even z).
  { intros z Hz. apply Z.even_spec. rewrite <- Z.negb_odd, Hz. auto. }
  assert (EV1 : forall z, Z.odd z = true -> Z.Even (z + 1)).
  { intros z Hz. apply Z.even_spec. rewrite Z.even_add, <- Z.negb_odd, Hz. auto. }
  assert (EO : forall z, Z.Even z -> Z.Even (- z)) by (intros z [c ->]; exists (- c); lia).
  destruct (Z.eqb_spec (q * u) m) as [E0|N0].
  - destruct md; unfold rounded_to; destruct s; simpl num; try split; intros; try nia;
      replace (m - q * u) with 0 in * by lia; replace (- m - - q * u) with 0 in * by lia; simpl in *; lia.
  - assert (Q0 : 0 <= q) by (apply Z.div_pos; lia).
    assert (R0 : 0 < m mod u) by lia. assert (M0 : 0 < m) by nia.
    destruct md; unfold round_up_mag, rounded_to.
    + assert (A : forall z, Z.abs (num s m - num s z * u) = Z.abs (m - z * u)) by (intros; destruct s; simpl; lia).
      rewrite A. set (r := m mod u) in *.
      assert (E0 : m - q * u = r) by lia. assert (E1 : m - (q + 1) * u = r - u) by lia.
      assert (C : 2 * m - (2 * q + 1) * u = 2 * r - u) by lia.
      destruct (Z.compare_spec (2 * m) ((2 * q + 1) * u)).
      * destruct (Z.odd q) eqn:O; rewrite ?E0, ?E1; (split; [lia|]); intros; destruct s; simpl; auto.
      * rewrite E0. split; [lia|]. intros. lia.
      * rewrite E1. split; [lia|]. intros. lia.
    + destruct s; simpl num; split; intros; lia.
    + destruct s; simpl; lia.
    + destruct s; simpl; lia.
Qed.
Lemma round_int_nonneg md s m k : 0 <= k -> 0 <= m -> 0 <= round_int md s m k.
Proof.
  intros Hk Hm. assert (0 <= m / 2 ^ k) by (apply Z.div_pos; [lia|apply Z.pow_pos_nonneg; lia]).
  destruct (round_int_cases binary32 md s m k Hk Hm); lia.
Qed.

Section Format.
  Variable f : fmt.
  Hypothesis Hf : fmt_ok f.
  Let M := 2 ^ mb f.
  Let HM : 2 <= M := pow_mb_pos f Hf.
  Let U := one f.
  Let HU : 0 < U := one_pos f Hf.
  Lemma HuM : 0 <= unit f.
  Proof. pose proof (unit_pos f Hf). pose proof (mb_pos f Hf). lia. Qed.

  (* ---------------------------------------------------------------- *)
  (* the constants *)
  Lemma const_val e : 0 < e -> e < 2 ^ eb f - 1 ->
    pattern f (e * M) /\ fval f (e * M) = Some (M * 2 ^ (e - 1)) /\ 0 <= e * M < inf_bits f.
  Proof.
    intros H0 H1. assert (R : 0 <= e * M < inf_bits f) by (unfold inf_bits; fold M; nia).
    pose proof (inf_lt f Hf). split; [|split; auto].
    - unfold pattern. rewrite (pow_fw f Hf). lia.
    - unfold fval. change (e * M) with (with_sign f false (e * M)). rewrite (decode_with_sign f Hf) by auto.
      simpl. replace (e * M) with (e * M + 0) by lia. rewrite (mag_qr f Hf) by (fold M; lia). fold M. rewrite Z.add_0_r. auto.
  Qed.
  Lemma one_val : pattern f (one_bits f) /\ fval f (one_bits f) = Some U /\ 0 <= one_bits f < inf_bits f.
  Proof.
    unfold one_bits. fold M. pose proof (bias_pos f Hf). pose proof (pow_bias f Hf). pose proof (mb_pos f Hf).
    destruct (const_val (bias f)) as (A & B & C); try lia. split; auto. split; auto. rewrite B. f_equal.
    unfold M, U, one, unit. rewrite <- Z.pow_add_r by lia. f_equal. lia.
  Qed.
  Lemma half_val : pattern f (half_bits f) /\ exists h, fval f (half_bits f) = Some h /\ 2 * h = U.
  Proof.
    unfold half_bits. fold M. pose proof (bias_pos f Hf). pose proof (pow_bias f Hf). pose proof (mb_pos f Hf).
    destruct (const_val (bias f - 1)) as (A & B & C); try lia. split; auto. eexists. split; [exact B|].
    unfold M, U, one, unit. rewrite <- Z.pow_add_r by lia. replace 2 with (2 ^ 1) at 1 by auto. rewrite <- Z.pow_add_r by lia. f_equal. lia.
  Qed.
  Lemma shifter_val : pattern f (shifter_bits f) /\ fval f (shifter_bits f) = Some (M * U) /\ 0 <= shifter_bits f < inf_bits f.
  Proof.
    unfold shifter_bits. change (fp f - 1) with (mb f). fold M. pose proof (bias_pos f Hf). pose proof (pow_bias f Hf).
    pose proof (mb_pos f Hf). pose proof (mb_lt_bias f Hf).
    destruct (const_val (bias f + mb f)) as (A & B & C); try lia. split; auto. split; auto. rewrite B. f_equal.
    unfold U, one, unit. f_equal. f_equal. lia.
  Qed.
  Lemma zero_val : pattern f (zero_bits f) /\ fval f (zero_bits f) = Some 0.
  Proof.
    unfold zero_bits. split; [unfold pattern; rewrite (pow_fw f Hf); pose proof (inf_lt f Hf); pose proof (inf_pos f Hf); lia|].
    unfold fval. change 0 with (with_sign f false 0) at 1. rewrite (decode_with_sign f Hf) by (pose proof (inf_pos f Hf); lia).
    rewrite (mag_small f 0) by (fold M; lia). auto.
  Qed.

  (* ---------------------------------------------------------------- *)
  (* comparisons of finite numbers *)
  Lemma cmp_fin x y v w : fval f x = Some v -> fval f y = Some w -> compare_lanes f x y = Some (v ?= w).
  Proof.
    unfold fval, compare_lanes. destruct (decode f x); try discriminate. destruct (decode f y); try discriminate.
    intros A B. inversion A; inversion B; auto.
  Qed.
  Lemma flt_fin x y v w : fval f x = Some v -> fval f y = Some w -> flt f x y = (v <? w).
  Proof. intros A B. unfold flt, cmp. rewrite (cmp_fin x y v w A B). unfold Z.ltb. destruct (v ?= w); auto. Qed.
  Lemma fgt_fin x y v w : fval f x = Some v -> fval f y = Some w -> fgt f x y = (w <? v).
  Proof. intros A B. unfold fgt, cmp. rewrite (cmp_fin x y v w A B). rewrite <- Z.gtb_ltb. unfold Z.gtb. destruct (v ?= w); auto. Qed.
  Lemma fge_fin x y v w : fval f x = Some v -> fval f y = Some w -> fge f x y = (w <=? v).
  Proof. intros A B. unfold fge, cmp. rewrite (cmp_fin x y v w A B). rewrite <- Z.geb_leb. unfold Z.geb. destruct (v ?= w); auto. Qed.
  Lemma feq_fin x y v w : fval f x = Some v -> fval f y = Some w -> feq f x y = (v =? w).
  Proof.
    intros A B. unfold feq, cmp. rewrite (cmp_fin x y v w A B).
    destruct (Z.compare_spec v w); destruct (Z.eqb_spec v w); auto; lia.
  Qed.

  (* ---------------------------------------------------------------- *)
  (* sign bit operations *)
  Lemma land_abs x : Z.land x (absmask f) = mag_bits f x.
  Proof. rewrite Z.land_comm. apply (fabs_val f Hf). Qed.
  Lemma lor_sign s a : 0 <= a < 2 ^ (fw f - 1) -> Z.lor (with_sign f s 0) a = with_sign f s a.
  Proof.
    intros Ha. destruct s; simpl; auto. rewrite Z.add_0_r. pose proof (fw_pos f Hf).
    assert (L : Z.land (2 ^ (fw f - 1)) a = 0).
    { apply Z.bits_inj'; intros j Hj. rewrite Z.land_spec, Z.bits_0, testbit_pow2 by lia.
      destruct (Z.eqb_spec (fw f - 1) j); auto; subst j. rewrite (testbit_above a (fw f - 1)) by lia. auto. }
    rewrite <- Z.lxor_lor by auto. rewrite Z.add_nocarry_lxor; auto.
  Qed.
  Lemma lor_sign2 s s' a : 0 <= a < 2 ^ (fw f - 1) -> Z.lor (with_sign f s 0) (with_sign f s' a) = with_sign f (s || s') a.
  Proof.
    intros Ha. rewrite <- (lor_sign s' a) by auto. rewrite Z.lor_assoc.
    replace (Z.lor (with_sign f s 0) (with_sign f s' 0)) with (with_sign f (s || s') 0).
    - apply lor_sign; auto.
    - destruct s, s'; simpl; rewrite ?Z.add_0_r, ?Z.lor_0_r; auto. rewrite Z.lor_diag. auto.
  Qed.
  Lemma xor_abs x : pattern f x -> Z.lxor (mag_bits f x) x = with_sign f (sign_of f x) 0.
  Proof.
    intros Hx. pose proof (mag_bits_bound f Hf x) as B.
    rewrite (split_with_sign f Hf x Hx) at 2. rewrite <- (lor_sign _ (mag_bits f x)) by auto.
    destruct (sign_of f x); simpl.
    - rewrite Z.add_0_r. rewrite <- Z.lxor_lor.
      + rewrite (Z.lxor_comm (2 ^ (fw f - 1))), <- Z.lxor_assoc, Z.lxor_nilpotent, Z.lxor_0_l. auto.
      + pose proof (fw_pos f Hf). apply Z.bits_inj'; intros j Hj. rewrite Z.land_spec, Z.bits_0, testbit_pow2 by lia.
        destruct (Z.eqb_spec (fw f - 1) j); auto; subst j. rewrite (testbit_above (mag_bits f x) (fw f - 1)) by lia. auto.
    - apply Z.lxor_nilpotent.
  Qed.
  Lemma land_signmask x : pattern f x -> Z.land (signmask f) x = with_sign f (sign_of f x) 0.
  Proof.
    intros Hx. pose proof (mag_bits_bound f Hf x) as B. pose proof (fw_pos f Hf).
    rewrite (signmask_val f Hf). rewrite (split_with_sign f Hf x Hx) at 1. rewrite <- (lor_sign _ (mag_bits f x)) by auto.
    rewrite Z.land_lor_distr_r.
    replace (Z.land (2 ^ (fw f - 1)) (mag_bits f x)) with 0.
    - rewrite Z.lor_0_r. destruct (sign_of f x); simpl; rewrite ?Z.add_0_r, ?Z.land_diag, ?Z.land_0_r; auto.
    - symmetry. apply Z.bits_inj'; intros j Hj. rewrite Z.land_spec, Z.bits_0, testbit_pow2 by lia.
      destruct (Z.eqb_spec (fw f - 1) j); auto; subst j. rewrite (testbit_above (mag_bits f x) (fw f - 1)) by lia. auto.
  Qed.
  Lemma all_land x : pattern f x -> Z.land (allbits f) x = x.
  Proof.
    intros [H0 H1]. unfold allbits. replace (2 ^ fw f - 1) with (Z.ones (fw f)) by (rewrite Z.ones_equiv; lia).
    rewrite Z.land_comm, Z.land_ones by (pose proof (fw_pos f Hf); lia). apply Z.mod_small; lia.
  Qed.
  Lemma andnot_all x : pattern f x -> andnot (allbits f) x = 0.
  Proof.
    intros Hx. rewrite <- (all_land x Hx). unfold andnot. rewrite Z.land_assoc, (Z.land_comm (Z.lnot _)), Z.land_lnot_diag. apply Z.land_0_l.
  Qed.
  Lemma andnot_0 x : andnot 0 x = x.
  Proof. unfold andnot. rewrite Z.lnot_0, Z.land_m1_l. auto. Qed.

  (* the finite argument *)
  Lemma finite_arg x s m : pattern f x -> decode f x = DFin s m ->
    sign_of f x = s /\ m = mag f (mag_bits f x) /\ 0 <= mag_bits f x < inf_bits f /\ 0 <= m /\
    fval f x = Some (num s m) /\ fval f (mag_bits f x) = Some m /\ pattern f (mag_bits f x) /\ repr f m.
  Proof.
    intros Hx D. destruct (decode_fin f Hf x s m Hx D) as (a & Ha & Em & Ex). pose proof (inf_lt f Hf).
    assert (S : sign_of f x = s) by (rewrite Ex; apply sign_with_sign; auto; lia).
    assert (A : mag_bits f x = a) by (rewrite Ex; apply mag_with_sign; auto; lia).
    rewrite S, A. repeat (split; [now auto|]).
    assert (0 <= m) by (rewrite Em; apply (mag_nonneg f Hf); lia).
    repeat (split; [now auto|]).
    split; [unfold fval; rewrite D; auto|].
    split; [|split].
    - unfold fval. change a with (with_sign f false a). rewrite (decode_with_sign f Hf) by auto. simpl. congruence.
    - unfold pattern. rewrite (pow_fw f Hf). lia.
    - rewrite Em. apply repr_mag; auto.
  Qed.
  (* NaN and infinities are not below anything finite *)
  Lemma not_small x y w : pattern f x -> fval f x = None -> fval f y = Some w -> flt f (mag_bits f x) y = false.
  Proof.
    intros Hx N Hy. unfold flt, cmp, compare_lanes. pose proof (mag_bits_bound f Hf x) as B.
    unfold fval in *. rewrite (decode_split f Hf) in N.
    assert (D : decode f (mag_bits f x) = decode_mag f false (mag_bits f x)).
    { rewrite (decode_split f Hf), (sign_of_mag f), (mag_bits_small f) by auto. auto. }
    rewrite D. unfold decode_mag in *.
    destruct (_ <? _); try discriminate. destruct (decode f y); try discriminate. destruct (_ =? _); auto.
  Qed.

  (* x + 2^(p-1) - 2^(p-1) with the sign of x *)
  Lemma shift_and_back md s x c m : pattern f x -> 0 <= m < M * U -> repr f m ->
    fval f x = Some (num s m) -> pattern f c -> fval f c = Some (num s (M * U)) ->
    fval f (plus_minus f md x c) = Some (num s (round_int md s m (unit f) * U)).
  Proof.
    intros Hx Hm Rm Vx Pc Vc. pose proof (round_int_cases f md s m (unit f) HuM (proj1 Hm)) as RC.
    assert (Q : 0 <= m / 2 ^ unit f < M).
    { change (2 ^ unit f) with U. split; [apply Z.div_pos; lia|apply Z.div_lt_upper_bound; lia]. }
    change (2 ^ unit f) with U in *.
    assert (A : fval f (fadd f md x c) = Some (num s ((round_int md s m (unit f) + M) * U))).
    { unfold fval in Vx, Vc |- *. unfold fadd.
      destruct (decode f x) as [|?|sx mx] eqn:Dx; try discriminate.
      destruct (decode f c) as [|?|sc mc] eqn:Dc; try discriminate.
      inversion Vx as [Vx']. inversion Vc as [Vc']. rewrite Vx', Vc'. cbv zeta.
      set (v := num s m + num s (M * U)).
      assert (V : v = num s (m + M * U)) by (unfold v; destruct s; simpl; lia).
      unfold fround. destruct (Z.eqb_spec v 0); [destruct s; simpl in V; nia|].
      assert (SV : (v <? 0) = s) by (rewrite V; destruct s; simpl; [apply Z.ltb_lt|apply Z.ltb_ge]; nia).
      assert (AV : Z.abs v = m + M * U) by (rewrite V; destruct s; simpl; nia).
      rewrite SV, AV. destruct (round_binade f Hf md s (m + M * U)) as [E L]; [fold M U; lia|].
      fold M U in E, L. pose proof (round_bits_range f Hf md s 0 (m + M * U) ltac:(lia) ltac:(nia)).
      rewrite (decode_with_sign f Hf) by lia. rewrite E.
      change U with (2 ^ unit f) at 1. rewrite (round_int_shift f md s m (unit f) M HuM); auto.
      unfold M. pose proof (mb_pos f Hf). exists (2 ^ (mb f - 1)). replace (mb f) with (1 + (mb f - 1)) at 1 by lia.
      rewrite Z.pow_add_r by lia. reflexivity. }
    unfold plus_minus. erewrite (fsub_exact f Hf); [|exact Pc|exact A|exact Vc|].
    - f_equal. destruct s; simpl; lia.
    - replace (num s ((round_int md s m (unit f) + M) * U) - num s (M * U)) with ((num s (round_int md s m (unit f))) * U)
        by (destruct s; simpl; lia).
      apply (repr_int f Hf). fold M. destruct s; cbn [num]; lia.
  Qed.

  (* ---------------------------------------------------------------- *)
  (* truncation: the value the result must have *)
  Definition trunc_ok (x y : Z) : Prop :=
    pattern f y /\
    match decode f x with
    | DNaN => decode f y = DNaN
    | DInf s => decode f y = DInf s
    | DFin s m => fval f y = Some (num s (m / U * U))
    end.

  Lemma pattern_or s y : pattern f y -> pattern f (Z.lor (with_sign f s 0) y).
  Proof.
    intros Hy. rewrite (split_with_sign f Hf y Hy). rewrite lor_sign2 by apply (mag_bits_bound f Hf).
    apply (with_sign_pattern f Hf). apply (mag_bits_bound f Hf).
  Qed.
  (* or-ing a sign bit into a non-negative number *)
  Lemma fval_or s y v : pattern f y -> fval f y = Some v -> 0 <= v -> fval f (Z.lor (with_sign f s 0) y) = Some (num s v).
  Proof.
    intros Hy V Hv. unfold fval in V. destruct (decode f y) as [|?|sy my] eqn:D; try discriminate.
    destruct (decode_fin f Hf y sy my Hy D) as (a & Ha & Em & ->). pose proof (inf_lt f Hf).
    rewrite lor_sign2 by lia. unfold fval. rewrite (decode_with_sign f Hf) by auto.
    inversion V. rewrite <- Em. assert (0 <= my) by (rewrite Em; apply (mag_nonneg f Hf); lia).
    f_equal. destruct s, sy; simpl in *; lia.
  Qed.
  (* x itself when it is large, infinite or NaN *)
  Lemma trunc_self x : pattern f x -> (forall s m, decode f x = DFin s m -> M * U <= m) -> trunc_ok x x.
  Proof.
    intros Hx L. split; auto. destruct (decode f x) as [|s|s m] eqn:D; auto.
    destruct (finite_arg x s m Hx D) as (_ & Em & Ha & Hm & V & _). rewrite V. do 2 f_equal.
    pose proof (mag_large f Hf (mag_bits f x) ltac:(lia)) as Z0. rewrite <- Em in Z0. fold M U in Z0.
    specialize (Z0 (L s m eq_refl)). pose proof (Z.div_mod m U ltac:(lia)). lia.
  Qed.
  (* the guard absx < 2^(p-1) *)
  Lemma guard x : pattern f x ->
    flt f (mag_bits f x) (shifter_bits f) = match decode f x with DFin _ m => m <? M * U | _ => false end.
  Proof.
    intros Hx. destruct shifter_val as (_ & VS & _).
    destruct (decode f x) as [|s|s m] eqn:D.
    - eapply not_small; eauto. unfold fval; rewrite D; auto.
    - eapply not_small; eauto. unfold fval; rewrite D; auto.
    - destruct (finite_arg x s m Hx D) as (_ & _ & _ & _ & _ & VA & _). apply flt_fin; auto.
  Qed.

  Lemma builtin_trunc_ok md x : pattern f x -> trunc_ok x (builtin_trunc f md x).
  Proof.
    intros Hx. unfold builtin_trunc. cbv zeta. rewrite land_abs. rewrite guard by auto.
    destruct (decode f x) as [|s|s m] eqn:D.
    1,2: apply trunc_self; auto; intros ? ?; rewrite D; discriminate.
    destruct (Z.ltb_spec m (M * U)) as [L|L].
    2: { apply trunc_self; auto. intros ? ?; rewrite D; intros E; inversion E; subst; auto. }
    destruct (finite_arg x s m Hx D) as (S & Em & Ha & Hm & V & VA & PA & RM).
    destruct shifter_val as (PS & VS & _). destruct one_val as (P1 & V1 & _). destruct zero_val as (P0 & V0).
    pose proof (shift_and_back md false (mag_bits f x) (shifter_bits f) m PA ltac:(lia) RM VA PS VS) as T0.
    simpl num in T0.
    pose proof (round_int_cases f md false m (unit f) HuM Hm) as RC. change (2 ^ unit f) with U in RC.
    assert (Q : 0 <= m / U < M) by (split; [apply Z.div_pos; lia|apply Z.div_lt_upper_bound; lia]).
    pose proof (Z.div_mod m U ltac:(lia)) as DM. pose proof (Z.mod_pos_bound m U HU) as DB.
    set (t0 := plus_minus f md (mag_bits f x) (shifter_bits f)) in *.
    assert (T1 : fval f (fsub f md t0 (if fgt f t0 (mag_bits f x) then one_bits f else zero_bits f)) = Some (m / U * U)).
    { rewrite (fgt_fin t0 (mag_bits f x) _ _ T0 VA).
      destruct (Z.ltb_spec m (round_int md false m (unit f) * U)) as [G|G].
      - destruct RC as [RC|[RC RL]]; rewrite RC in *; [nia|].
        replace (m / U * U) with ((m / U + 1) * U - U) by lia. apply (fsub_exact f Hf); auto.
        replace ((m / U + 1) * U - U) with (m / U * U) by lia. apply (repr_int f Hf). fold M. lia.
      - destruct RC as [RC|[RC RL]]; rewrite RC in *; [|nia].
        pose proof (fsub_exact f Hf md t0 (zero_bits f) _ _ P0 T0 V0) as F. rewrite Z.sub_0_r in F.
        apply F. apply (repr_int f Hf). fold M. lia. }
    set (t1 := fsub f md t0 _) in *. assert (PT : pattern f t1) by apply (fsub_pattern f Hf).
    rewrite xor_abs by auto. split; [apply pattern_or; auto|]. rewrite D, <- S.
    apply fval_or; auto. nia.
  Qed.

  (* the instruction *)
  Lemma fround_to_int_ok md x : pattern f x ->
    pattern f (fround_to_int f md x) /\
    match decode f x with
    | DNaN => decode f (fround_to_int f md x) = DNaN
    | DInf s => decode f (fround_to_int f md x) = DInf s
    | DFin s m => decode f (fround_to_int f md x) = DFin s (round_int md s m (unit f) * U)
    end.
  Proof.
    intros Hx. unfold fround_to_int. pose proof (inf_lt f Hf) as HI. pose proof (inf_pos f Hf) as HP.
    destruct (decode f x) as [|s|s m] eqn:D.
    - split; [apply (pattern_nan f Hf)|apply (decode_nan f Hf)].
    - split; [apply (with_sign_pattern f Hf); lia|apply (decode_with_inf f Hf)].
    - destruct (finite_arg x s m Hx D) as (S & Em & Ha & Hm & V & VA & PA & RM).
      fold U. change (2 ^ unit f) with U.
      pose proof (round_int_nonneg md s m (unit f) HuM Hm) as RN.
      assert (R : repr f (round_int md s m (unit f) * U)).
      { destruct (Z_lt_le_dec m (M * U)) as [L|L].
        - pose proof (round_int_cases f md s m (unit f) HuM Hm) as RC. change (2 ^ unit f) with U in RC.
          assert (Q : 0 <= m / U < M) by (split; [apply Z.div_pos; lia|apply Z.div_lt_upper_bound; lia]).
          apply (repr_int f Hf). fold M. lia.
        - pose proof (mag_large f Hf (mag_bits f x) ltac:(lia)) as Z0. rewrite <- Em in Z0. fold M U in Z0. specialize (Z0 L).
          pose proof (Z.div_mod m U ltac:(lia)). unfold round_int. change (2 ^ unit f) with U.
          destruct (Z.eqb_spec (m / U * U) m); [|lia]. replace (m / U * U) with m by lia. auto. }
      destruct R as (a & Ha' & Ea). rewrite Z.abs_eq in Ea by nia.
      rewrite <- Ea. pose proof (round_bits_exact f Hf ToZero s 0 a ltac:(lia) Ha') as X.
      rewrite Z.pow_0_r, Z.mul_1_r in X. rewrite X.
      split; [apply (with_sign_pattern f Hf); lia|]. apply (decode_with_sign f Hf). auto.
  Qed.
  Lemma instr_trunc_ok x : pattern f x -> trunc_ok x (fround_to_int f ToZero x).
  Proof.
    intros Hx. destruct (fround_to_int_ok ToZero x Hx) as [P E]. split; auto.
    destruct (decode f x) as [|s|s m] eqn:D; auto. unfold fval. rewrite E. f_equal. f_equal.
    unfold round_int. simpl. change (2 ^ unit f) with U. destruct (_ =? _); auto.
  Qed.

  (* ---------------------------------------------------------------- *)
  (* round, floor, ceil from any truncation *)
  Definition half_up (m : Z) : Z := if U <=? 2 * (m mod U) then m / U + 1 else m / U.

  Lemma frac_repr x s m : pattern f x -> decode f x = DFin s m -> repr f (m mod U).
  Proof.
    intros Hx D. destruct (finite_arg x s m Hx D) as (_ & Em & Ha & _). rewrite Em. apply (repr_frac f Hf); auto.
  Qed.
  Lemma int_repr x s m k : pattern f x -> decode f x = DFin s m ->
    k = m / U \/ (k = m / U + 1 /\ m mod U <> 0) -> repr f (k * U).
  Proof.
    intros Hx D Hk. destruct (finite_arg x s m Hx D) as (_ & Em & Ha & Hm & _ & _ & _ & RM).
    pose proof (Z.div_mod m U ltac:(lia)).
    destruct (Z_lt_le_dec m (M * U)) as [L|L].
    - assert (Q : 0 <= m / U < M) by (split; [apply Z.div_pos; lia|apply Z.div_lt_upper_bound; lia]).
      apply (repr_int f Hf). fold M. lia.
    - pose proof (mag_large f Hf (mag_bits f x) ltac:(lia)) as Z0. rewrite <- Em in Z0. fold M U in Z0. specialize (Z0 L).
      destruct Hk as [->|[_ ?]]; [|lia]. replace (m / U * U) with m by lia. auto.
  Qed.

  Definition value_ok (g : bool -> Z -> Z) (x y : Z) : Prop :=
    pattern f y /\
    match decode f x with
    | DNaN => decode f y = DNaN
    | DInf s => decode f y = DInf s
    | DFin s m => fval f y = Some (g s m)
    end.

  Lemma nan_add_l md x y : decode f x = DNaN -> decode f (fadd f md x y) = DNaN.
  Proof. intros E. unfold fadd. rewrite E. apply (decode_nan f Hf). Qed.
  Lemma inf_add_fin md x y s w : decode f x = DInf s -> fval f y = Some w -> decode f (fadd f md x y) = DInf s.
  Proof.
    intros E V. unfold fadd, fval in *. rewrite E. destruct (decode f y); try discriminate. apply (decode_with_inf f Hf).
  Qed.
  Lemma inf_sub_inf md x y s : pattern f y -> decode f x = DInf s -> decode f y = DInf s -> decode f (fsub f md x y) = DNaN.
  Proof.
    intros Hy Ex Ey. unfold fsub, fadd. rewrite Ex, (decode_neg f Hf) by auto. rewrite Ey.
    destruct s; simpl; apply (decode_nan f Hf).
  Qed.
  Lemma fge_nan x y : decode f x = DNaN -> fge f x y = false.
  Proof. intros E. unfold fge, cmp, compare_lanes. rewrite E. auto. Qed.

  Lemma decode_mag_nan s s' a : decode_mag f s a = DNaN -> decode_mag f s' a = DNaN.
  Proof. unfold decode_mag. destruct (_ <? _); try discriminate. destruct (_ =? _); auto; discriminate. Qed.
  Lemma decode_mag_inf s s' a t : decode_mag f s a = DInf t -> decode_mag f s' a = DInf s'.
  Proof. unfold decode_mag. destruct (_ <? _); try discriminate. destruct (_ =? _); auto; discriminate. Qed.

  Lemma builtin_round_ok tr md x : pattern f x ->
    trunc_ok (mag_bits f x) (tr (mag_bits f x)) ->
    value_ok (fun s m => num s (half_up m * U)) x (builtin_round tr f md x).
  Proof.
    intros Hx [PT HT]. unfold builtin_round. cbv zeta. rewrite !(fabs_val f Hf).
    set (t := tr (mag_bits f x)) in *.
    destruct one_val as (P1 & V1 & _). destruct zero_val as (P0 & V0). destruct half_val as (PH & h & VH & Eh).
    set (r := fadd f md t _).
    assert (PR : pattern f r) by apply (fadd_pattern f Hf).
    rewrite xor_abs by auto. split; [apply pattern_or; auto|].
    pose proof (mag_bits_bound f Hf x) as B.
    assert (DM : decode f (mag_bits f x) = decode_mag f false (mag_bits f x)).
    { rewrite (decode_split f Hf (mag_bits f x)), (sign_of_mag f), (mag_bits_small f) by auto. auto. }
    assert (NANCASE : forall d, decode f r = DNaN -> d = Z.lor (with_sign f (sign_of f x) 0) r -> decode f d = DNaN).
    { intros d Er ->. pose proof (mag_bits_bound f Hf r). rewrite (split_with_sign f Hf r PR), lor_sign2 by auto.
      rewrite (decode_split f Hf) in Er. rewrite (decode_split f Hf), (sign_with_sign f), (mag_with_sign f) by auto.
      eapply decode_mag_nan; eauto. }
    destruct (decode f x) as [|s|s m] eqn:D.
    - (* NaN *)
      assert (DA : decode f (mag_bits f x) = DNaN).
      { rewrite DM. rewrite (decode_split f Hf) in D. eapply decode_mag_nan; eauto. }
      rewrite DA in HT. apply (NANCASE _ (nan_add_l md t _ HT) eq_refl).
    - assert (DA : decode f (mag_bits f x) = DInf false).
      { rewrite DM. rewrite (decode_split f Hf) in D. eapply decode_mag_inf; eauto. }
      assert (S : sign_of f x = s).
      { pose proof (sign_datum f Hf x) as SD. rewrite D in SD. auto. }
      rewrite DA in HT.
      assert (Er : decode f r = DInf false).
      { unfold r. rewrite (fge_nan (fsub f md (mag_bits f x) t)) by (apply (inf_sub_inf md _ _ false); auto).
        eapply inf_add_fin; eauto. }
      rewrite (decode_inf f Hf r false PR Er). rewrite S. pose proof (inf_lt f Hf). pose proof (inf_pos f Hf).
      rewrite lor_sign2 by lia. rewrite orb_false_r. apply (decode_with_inf f Hf).
    - destruct (finite_arg x s m Hx D) as (S & Em & Ha & Hm & V & VA & PA & RM).
      assert (DA : decode f (mag_bits f x) = DFin false m).
      { rewrite DM. unfold decode_mag. destruct (Z.ltb_spec (mag_bits f x) (inf_bits f)); [|lia]. congruence. }
      rewrite DA in HT. simpl num in HT.
      pose proof (Z.div_mod m U ltac:(lia)) as EM. pose proof (Z.mod_pos_bound m U HU) as BM.
      assert (SUB : fval f (fsub f md (mag_bits f x) t) = Some (m - m / U * U)).
      { apply (fsub_exact f Hf); auto. replace (m - m / U * U) with (m mod U) by lia. apply (frac_repr x s m Hx D). }
      assert (Q : 0 <= m / U) by (apply Z.div_pos; lia).
      rewrite <- S. unfold half_up.
      assert (GE : fge f (fsub f md (mag_bits f x) t) (half_bits f) = (U <=? 2 * (m mod U))).
      { rewrite (fge_fin _ _ _ _ SUB VH). destruct (Z.leb_spec h (m - m / U * U)), (Z.leb_spec U (2 * (m mod U))); auto; lia. }
      apply fval_or; auto; [|destruct (_ <=? _); nia].
      unfold r. rewrite GE. destruct (Z.leb_spec U (2 * (m mod U))).
      + replace ((m / U + 1) * U) with (m / U * U + U) by lia. apply (fadd_exact f Hf); auto.
        replace (m / U * U + U) with ((m / U + 1) * U) by lia. apply (int_repr x s m _ Hx D). right. split; auto. lia.
      + replace (m / U * U) with (m / U * U + 0) by lia. apply (fadd_exact f Hf); auto.
        rewrite Z.add_0_r. eapply int_repr; eauto.
  Qed.

  Lemma floor_repr x s m k : pattern f x -> decode f x = DFin s m ->
    k = num s (m / U) \/ (k = num s (m / U + 1) /\ m mod U <> 0) -> repr f (k * U).
  Proof.
    intros Hx D Hk. destruct Hk as [->|[-> N]].
    - replace (num s (m / U) * U) with (num s (m / U * U)) by (destruct s; simpl; lia).
      apply repr_num. eapply int_repr; eauto.
    - replace (num s (m / U + 1) * U) with (num s ((m / U + 1) * U)) by (destruct s; simpl; lia).
      apply repr_num. eapply int_repr; eauto.
  Qed.

  Lemma builtin_floor_ok tr md x : pattern f x -> trunc_ok x (tr x) ->
    value_ok (fun s m => num s m / U * U) x (builtin_floor tr f md x).
  Proof.
    intros Hx [PT HT]. unfold builtin_floor. cbv zeta. set (y := tr x) in *.
    destruct one_val as (P1 & V1 & _). destruct zero_val as (P0 & V0).
    assert (PS : pattern f (fsub f md y (one_bits f))) by apply (fsub_pattern f Hf).
    assert (PALL : pattern f (allbits f)) by (unfold pattern, allbits; rewrite (pow_fw f Hf); pose proof (inf_lt f Hf); pose proof (inf_pos f Hf); lia).
    assert (SEL : Z.lor (andnot (andnot (as_mask f (feq f y x)) (as_mask f (flt f x (zero_bits f)))) y)
        (Z.land (andnot (as_mask f (feq f y x)) (as_mask f (flt f x (zero_bits f)))) (fsub f md y (one_bits f)))
      = if feq f y x then y else if flt f x (zero_bits f) then fsub f md y (one_bits f) else y).
    { unfold as_mask. destruct (feq f y x); destruct (flt f x (zero_bits f)).
      - rewrite andnot_all by auto. rewrite andnot_0, Z.land_0_l, Z.lor_0_r. auto.
      - unfold andnot at 2 3. rewrite Z.land_0_r, andnot_0, Z.land_0_l, Z.lor_0_r. auto.
      - rewrite andnot_0, andnot_all, all_land by auto. apply Z.lor_0_l.
      - rewrite !andnot_0, Z.land_0_l, Z.lor_0_r. auto. }
    rewrite SEL. clear SEL. split; [destruct (feq f y x); auto; destruct (flt _ _ _); auto|].
    destruct (decode f x) as [|s|s m] eqn:D.
    - assert (E1 : flt f x (zero_bits f) = false) by (unfold flt, cmp, compare_lanes; rewrite D; auto).
      rewrite E1. destruct (feq f y x); auto.
    - assert (E1 : feq f y x = true) by (unfold feq, cmp, compare_lanes; rewrite D, HT; simpl; rewrite Bool.eqb_reflx; auto).
      rewrite E1. auto.
    - destruct (finite_arg x s m Hx D) as (S & Em & Ha & Hm & V & VA & PA & RM).
      rewrite (feq_fin _ _ _ _ HT V), (flt_fin _ _ _ _ V V0).
      pose proof (Z.div_mod m U ltac:(lia)) as EM. pose proof (Z.mod_pos_bound m U HU) as BM.
      assert (Q : 0 <= m / U) by (apply Z.div_pos; lia).
      destruct (Z.eqb_spec (num s (m / U * U)) (num s m)) as [E|N].
      + assert (num s m / U = num s (m / U)).
        { rewrite <- E. replace (num s (m / U * U)) with (num s (m / U) * U) by (destruct s; simpl; lia). apply Z.div_mul. lia. }
        rewrite H, HT. f_equal. destruct s; simpl; lia.
      + destruct s; simpl num in *.
        * destruct (Z.ltb_spec (- m) 0); [|nia].
          assert (F : - m / U = - (m / U) - 1).
          { symmetry. apply (Z.div_unique (- m) U (- (m / U) - 1) (U - m mod U)); nia. }
          rewrite F. replace ((- (m / U) - 1) * U) with (- (m / U * U) - U) by lia.
          apply (fsub_exact f Hf); auto. replace (- (m / U * U) - U) with (- (m / U + 1) * U) by lia.
          apply (floor_repr x true m); auto. right. simpl. split; [lia|]. lia.
        * destruct (Z.ltb_spec m 0); [lia|]. auto.
  Qed.
  Lemma builtin_ceil_ok tr md x : pattern f x -> trunc_ok x (tr x) ->
    value_ok (fun s m => - ((- num s m) / U) * U) x (builtin_ceil tr f md x).
  Proof.
    intros Hx [PT HT]. unfold builtin_ceil. cbv zeta. set (y := tr x) in *.
    destruct one_val as (P1 & V1 & _). destruct zero_val as (P0 & V0).
    assert (PS : pattern f (fadd f md y (one_bits f))) by apply (fadd_pattern f Hf).
    assert (SEL : Z.lor (Z.land (Z.lor (as_mask f (feq f y x)) (as_mask f (flt f x (zero_bits f)))) y)
        (andnot (Z.lor (as_mask f (feq f y x)) (as_mask f (flt f x (zero_bits f)))) (fadd f md y (one_bits f)))
      = if feq f y x then y else if flt f x (zero_bits f) then y else fadd f md y (one_bits f)).
    { unfold as_mask. destruct (feq f y x); destruct (flt f x (zero_bits f)); rewrite ?Z.lor_diag, ?Z.lor_0_r, ?Z.lor_0_l;
        try (rewrite andnot_all, all_land, Z.lor_0_r by auto; auto).
      apply andnot_0. }
    rewrite SEL. clear SEL. split; [destruct (feq f y x); auto; destruct (flt _ _ _); auto|].
    destruct (decode f x) as [|s|s m] eqn:D.
    - assert (E1 : flt f x (zero_bits f) = false) by (unfold flt, cmp, compare_lanes; rewrite D; auto).
      rewrite E1. destruct (feq f y x); auto. apply nan_add_l; auto.
    - assert (E1 : feq f y x = true) by (unfold feq, cmp, compare_lanes; rewrite D, HT; simpl; rewrite Bool.eqb_reflx; auto).
      rewrite E1. auto.
    - destruct (finite_arg x s m Hx D) as (S & Em & Ha & Hm & V & VA & PA & RM).
      rewrite (feq_fin _ _ _ _ HT V), (flt_fin _ _ _ _ V V0).
      pose proof (Z.div_mod m U ltac:(lia)) as EM. pose proof (Z.mod_pos_bound m U HU) as BM.
      assert (Q : 0 <= m / U) by (apply Z.div_pos; lia).
      destruct (Z.eqb_spec (num s (m / U * U)) (num s m)) as [E|N].
      + assert (- num s m / U = - num s (m / U)).
        { rewrite <- E. replace (- num s (m / U * U)) with (- num s (m / U) * U) by (destruct s; simpl; lia). apply Z.div_mul. lia. }
        rewrite H, HT. f_equal. destruct s; simpl; lia.
      + destruct s; simpl num in *.
        * destruct (Z.ltb_spec (- m) 0); [|nia]. rewrite Z.opp_involutive, HT. f_equal. lia.
        * destruct (Z.ltb_spec m 0); [lia|].
          assert (F : - m / U = - (m / U) - 1).
          { symmetry. apply (Z.div_unique (- m) U (- (m / U) - 1) (U - m mod U)); nia. }
          rewrite F. replace (- (- (m / U) - 1) * U) with (m / U * U + U) by lia.
          apply (fadd_exact f Hf); auto. replace (m / U * U + U) with ((m / U + 1) * U) by lia.
          apply (floor_repr x false m); auto. right. simpl. split; [lia|]. lia.
  Qed.

  Lemma builtin_nearbyint_ok md x : pattern f x ->
    value_ok (fun s m => num s (round_int md s m (unit f) * U)) x (builtin_nearbyint f md x).
  Proof.
    intros Hx. unfold builtin_nearbyint. cbv zeta. rewrite land_abs. rewrite guard, land_signmask by auto.
    destruct shifter_val as (PS & VS & RS). pose proof (inf_lt f Hf) as HI.
    rewrite (lor_sign _ (shifter_bits f)) by lia.
    assert (SELF : forall s m, decode f x = DFin s m -> M * U <= m -> fval f x = Some (num s (round_int md s m (unit f) * U))).
    { intros s m D L. destruct (finite_arg x s m Hx D) as (S & Em & Ha & Hm & V & VA & PA & RM).
      pose proof (mag_large f Hf (mag_bits f x) ltac:(lia)) as Z0. rewrite <- Em in Z0. fold M U in Z0. specialize (Z0 L).
      pose proof (Z.div_mod m U ltac:(lia)). unfold round_int. change (2 ^ unit f) with U.
      destruct (Z.eqb_spec (m / U * U) m); [|lia]. rewrite V. do 2 f_equal. lia. }
    split.
    { destruct (decode f x); auto. destruct (_ <? _); auto. apply (fsub_pattern f Hf). }
    destruct (decode f x) as [|s|s m] eqn:D; auto.
    destruct (Z.ltb_spec m (M * U)) as [L|L]; [|apply SELF; auto].
    destruct (finite_arg x s m Hx D) as (S & Em & Ha & Hm & V & VA & PA & RM).
    rewrite S. apply shift_and_back; auto.
    - apply (with_sign_pattern f Hf); lia.
    - unfold fval in *. change (shifter_bits f) with (with_sign f false (shifter_bits f)) in VS.
      rewrite (decode_with_sign f Hf) in VS by auto. rewrite (decode_with_sign f Hf) by auto. inversion VS. simpl in H0. rewrite H0. auto.
  Qed.

  (* x86 round *)
  Lemma x86_rounded_ok md t x : pattern f x -> trunc_ok x t ->
    value_ok (fun s m => num s (half_up m * U)) x (x86_rounded f md t x).
  Proof.
    intros Hx [PT HT]. unfold x86_rounded. rewrite Z.land_comm, land_abs.
    destruct one_val as (P1 & V1 & R1). destruct zero_val as (P0 & V0). destruct half_val as (PH & h & VH & Eh).
    split; [apply (fadd_pattern f Hf)|].
    assert (PD : pattern f (fsub f md x t)) by apply (fsub_pattern f Hf).
    destruct (decode f x) as [|s|s m] eqn:D.
    - apply nan_add_l; auto.
    - assert (N : decode f (mag_bits f (fsub f md x t)) = DNaN).
      { pose proof (inf_sub_inf md x t s PT D HT) as N. pose proof (mag_bits_bound f Hf (fsub f md x t)).
        rewrite (decode_split f Hf) in N. rewrite (decode_split f Hf (mag_bits f _)), (sign_of_mag f), (mag_bits_small f) by auto.
        eapply decode_mag_nan; eauto. }
      rewrite (fge_nan _ _ N). eapply inf_add_fin; eauto.
    - destruct (finite_arg x s m Hx D) as (S & Em & Ha & Hm & V & VA & PA & RM).
      pose proof (Z.div_mod m U ltac:(lia)) as EM. pose proof (Z.mod_pos_bound m U HU) as BM.
      assert (Q : 0 <= m / U) by (apply Z.div_pos; lia).
      assert (SUB : fval f (fsub f md x t) = Some (num s m - num s (m / U * U))).
      { apply (fsub_exact f Hf); auto. replace (num s m - num s (m / U * U)) with (num s (m mod U)) by (destruct s; simpl; lia).
        apply repr_num. apply (frac_repr x s m Hx D). }
      assert (ABS : fval f (mag_bits f (fsub f md x t)) = Some (m mod U)).
      { unfold fval in SUB. destruct (decode f (fsub f md x t)) as [|?|s' m'] eqn:D'; try discriminate. inversion SUB as [E'].
        destruct (finite_arg _ s' m' PD D') as (_ & _ & _ & Hm' & _ & VA' & _). rewrite VA'. f_equal.
        destruct s, s'; simpl in *; lia. }
      assert (GE : fge f (mag_bits f (fsub f md x t)) (half_bits f) = (U <=? 2 * (m mod U))).
      { rewrite (fge_fin _ _ _ _ ABS VH). destruct (Z.leb_spec h (m mod U)), (Z.leb_spec U (2 * (m mod U))); auto; lia. }
      rewrite GE, land_signmask by auto. rewrite S. pose proof (inf_lt f Hf). rewrite lor_sign by lia. unfold half_up.
      assert (V1s : fval f (with_sign f s (one_bits f)) = Some (num s U)).
      { unfold fval in *. change (one_bits f) with (with_sign f false (one_bits f)) in V1.
        rewrite (decode_with_sign f Hf) in V1 by auto. rewrite (decode_with_sign f Hf) by auto. inversion V1. simpl in H1. rewrite H1. auto. }
      destruct (Z.leb_spec U (2 * (m mod U))).
      + replace (num s ((m / U + 1) * U)) with (num s (m / U * U) + num s U) by (destruct s; simpl; lia).
        apply (fadd_exact f Hf); auto.
        replace (num s (m / U * U) + num s U) with (num s (m / U + 1) * U) by (destruct s; simpl; lia).
        apply (floor_repr x s m _ Hx D). right. split; auto. lia.
      + replace (num s (m / U * U)) with (num s (m / U * U) + 0) by lia. apply (fadd_exact f Hf); auto.
        rewrite Z.add_0_r. replace (num s (m / U * U)) with (num s (m / U) * U) by (destruct s; simpl; lia).
        apply (floor_repr x s m _ Hx D). auto.
  Qed.

  (* conversion of a small integer *)
  Lemma fof_int_val md v : Z.abs v <= 2 * M -> fval f (fof_int f md v) = Some (v * U).
  Proof.
    intros H. unfold fof_int, fval. change (2 ^ unit f) with U.
    rewrite (fround_exact f Hf md false (v * U) 0 (v * U)); [|lia|simpl; lia|apply (repr_int f Hf); auto].
    destruct (Z.eqb_spec (v * U) 0) as [->|N]; auto. rewrite (num_abs f). auto.
  Qed.
  Lemma fof_int_pattern md v : pattern f (fof_int f md v).
  Proof. apply (fround_pattern f Hf). lia. Qed.
End Format.
