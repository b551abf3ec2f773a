(* logb. *)
From Coq Require Import ZArith List Bool Lia Psatz.
From Verif Require Import Prelude X86Lanes Fixed FloatSpec FloatRoundSpec FloatMathSpec FloatBits FloatArith FloatProofs
  FloatArithProofs FloatRound FloatRoundProofs FloatRoundTop FloatSign FloatMath FloatMathProofs FloatFrexp.
Import ListNotations.
Open Scope Z_scope.

Section Format.
  Variable f : fmt.
  Hypothesis Hr : real_fmt f.
  Let Hf : fmt_ok f := real_ok f Hr.
  Let M := 2 ^ mb f.
  Let U := one f.

  Local Lemma HM : 2 <= M. Proof. apply (pow_mb_pos f Hf). Qed.
  Local Lemma Hmb : 1 <= mb f. Proof. apply (mb_pos f Hf). Qed.

  Lemma mag_of_decode x s m : pattern f x -> decode f x = DFin s m -> m <> 0 -> 0 < mag_bits f x < inf_bits f.
  Proof.
    intros Hx D N0. destruct (finite_arg f Hf x s m Hx D) as (S & Em & Ha & Hm & _).
    pose proof (mag_zero f Hf (mag_bits f x) ltac:(lia)) as MZ. rewrite <- Em in MZ.
    destruct (Z.eqb_spec m 0); destruct (Z.eqb_spec (mag_bits f x) 0); try discriminate; lia.
  Qed.

  (* the result that has the right value *)
  Lemma value_logb x y s m : pattern f x -> decode f x = DFin s m -> m <> 0 ->
    fval f y = Some ((Z.log2 m - unit f) * U) -> logb_result f (decode f x) (decode f y).
  Proof.
    intros Hx D N0 V. unfold logb_result. rewrite D. destruct (Z.eqb_spec m 0); [lia|].
    destruct (finite_arg f Hf x s m Hx D) as (S & Em & Ha & Hm & _).
    unfold fval in V. destruct (decode f y) as [|?|s' n1] eqn:Dy; try discriminate. inversion V as [E].
    exists (Z.log2 m - unit f), s', n1. split; auto. split; auto.
    replace (unit f + (Z.log2 m - unit f)) with (Z.log2 m) by lia.
    split; [apply Z.log2_nonneg|]. apply Z.log2_spec. lia.
  Qed.

  Lemma getexp_logb md x : pattern f x -> logb_result f (decode f x) (decode f (getexp f md x)).
  Proof.
    intros Hx. destruct (decode f x) as [|s|s m] eqn:D.
    - unfold getexp. rewrite D. apply (decode_nan f Hf).
    - unfold getexp. rewrite D. apply (decode_with_inf f Hf false).
    - destruct (Z.eq_dec m 0) as [E|N].
      + unfold getexp, logb_result. rewrite D, E. cbn [Z.eqb]. apply (decode_with_inf f Hf).
      + rewrite <- D. apply (value_logb x _ s m); auto. apply (getexp_val f Hr md x s m); auto.
  Qed.

  (* the exponent of a normal number *)
  Lemma logb_exponent_val a : 2 ^ mb f <= a < inf_bits f -> logb_exponent f a = Z.log2 (mag f a) - unit f.
  Proof.
    intros Ha. fold M in Ha. pose proof HM. pose proof Hmb. pose proof (inf_lt f Hf). unfold logb_exponent. rewrite (sgn_small f) by lia.
    change (fp f - 1) with (mb f). rewrite Z.shiftr_div_pow2 by lia. fold M. change (2 ^ (eb f - 1) - 1) with (bias f).
    destruct (mag_normal f Hr a ltac:(fold M; lia)) as (R & Q & N). fold M in R, Q, N. rewrite N.
    rewrite Z.log2_mul_pow2 by lia. assert (L : Z.log2 (M + a mod M) = mb f).
    { apply Z.log2_unique; [lia|]. rewrite Z.pow_succ_r by lia. fold M. lia. }
    rewrite L. unfold unit. lia.
  Qed.
  Lemma normal_logb md x s m : pattern f x -> decode f x = DFin s m -> M <= m ->
    logb_result f (decode f x) (decode f (fof_int f md (logb_exponent f (fabs_lane f x)))).
  Proof.
    intros Hx D Hm. pose proof HM. destruct (finite_arg f Hf x s m Hx D) as (S & Em & Ha & _).
    pose proof (mag_subnormal f Hf (mag_bits f x) ltac:(lia)) as Q. fold M in Q. rewrite <- Em in Q.
    rewrite (fabs_val f Hf). rewrite logb_exponent_val.
    2: { fold M. destruct (Z.ltb_spec m M); destruct (Z.ltb_spec (mag_bits f x) M); try lia; discriminate. }
    rewrite <- Em. apply (value_logb x _ s m); auto; [lia|]. apply (fof_int_val f Hf).
    apply (exp_range f Hr x s m); auto. lia.
  Qed.
  Lemma scaled_logb t md x s m : pattern f x -> decode f x = DFin s m -> 0 < m < M ->
    logb_result f (decode f x) (decode f (logb_scaled t f md x)).
  Proof.
    intros Hx D Hm. pose proof HM. pose proof Hmb. destruct (finite_arg f Hf x s m Hx D) as (S & Em & Ha & _ & _ & V & P & _).
    pose proof (bias_pos f Hf).
    assert (K : mb f <= 112 /\ bias f + 112 < 2 ^ eb f - 1 /\ 112 < 2 * bias f)
      by (destruct Hr; subst f; vm_compute; intuition discriminate).
    destruct K as (K1 & K2 & K3).
    unfold logb_scaled. cbv zeta. rewrite (fabs_val f Hf).
    pose proof (fval_decode f Hf _ _ Ha V) as DA.
    assert (DY : decode f (fmul f md (mag_bits f x) ((bias f + 112) * 2 ^ mb f)) = DFin false (m * 2 ^ 112)).
    { eapply (scaled_val f Hr); eauto; fold M; lia. }
    set (y := fmul f md (mag_bits f x) ((bias f + 112) * 2 ^ mb f)) in *.
    assert (PY : pattern f y) by apply (fmul_pattern f Hr).
    destruct (finite_arg f Hf y _ _ PY DY) as (SY & EY & HY & _).
    assert (MK : M <= 2 ^ 112) by (apply Z.pow_le_mono_r; lia).
    assert (E : mag_bits f y = y) by (rewrite (split_with_sign f Hf y PY) at 2; rewrite SY; auto).
    rewrite E in *.
    pose proof (mag_subnormal f Hf y ltac:(lia)) as Q. fold M in Q. rewrite <- EY in Q.
    rewrite logb_exponent_val.
    2: { fold M. destruct (Z.ltb_spec (m * 2 ^ 112) M); [nia|]. destruct (Z.ltb_spec y M); try lia; discriminate. }
    rewrite <- EY. rewrite Z.log2_mul_pow2 by lia.
    replace (112 + Z.log2 m - unit f - 112) with (Z.log2 m - unit f) by lia.
    apply (value_logb x _ s m); auto; [lia|]. apply (fof_int_val f Hf).
    apply (exp_range f Hr x s m); auto. lia.
  Qed.

  Lemma feq_zero x : pattern f x -> feq f x (zero_bits f) = match decode f x with DFin _ m => m =? 0 | _ => false end.
  Proof.
    intros Hx. destruct (zero_val f Hf) as [P0 V0]. destruct (decode f x) as [|s|s m] eqn:D.
    - unfold feq, cmp, compare_lanes, ieee_compare. rewrite D. auto.
    - unfold feq, cmp, compare_lanes, ieee_compare. rewrite D, (zero_decode f Hf). destruct s; auto.
    - destruct (finite_arg f Hf x s m Hx D) as (_ & _ & _ & _ & V & _).
      rewrite (feq_fin f x (zero_bits f) (num s m) 0) by auto. destruct s; cbn [num]; auto.
      destruct (Z.eqb_spec m 0), (Z.eqb_spec (- m) 0); auto; lia.
  Qed.

  Definition logb_one (instr : bool) (t : ftarget) (md : rmode) (x : Z) : Z :=
    if instr then getexp f md x
    else if match isnormal_lane t f x with Some b => b | None => false end
            || (feq f x (zero_bits f) || isnan_lane t f x || isinf_lane t f x)
    then logb_lane t f md x else logb_scaled t f md x.
  Lemma logb_one_ok instr t md x : pattern f x -> (instr = false -> isnormal_lane t f x <> None) ->
    logb_result f (decode f x) (decode f (logb_one instr t md x)).
  Proof.
    intros Hx HN. unfold logb_one. destruct instr; [apply getexp_logb; auto|].
    destruct (isnormal_lane t f x) as [b|] eqn:E; [|exfalso; apply HN; auto]. clear HN.
    pose proof (isnormal_decode f Hf t x b Hx E) as Eb. fold M in Eb.
    unfold logb_lane. cbv zeta. rewrite (isnan_decode f Hf), (isinf_decode f Hf), feq_zero by auto.
    destruct (decode f x) as [|s|s m] eqn:D.
    - rewrite orb_true_r. cbn. auto.
    - rewrite orb_true_r. apply (decode_with_inf f Hf false).
    - rewrite !orb_false_r. destruct (Z.eqb_spec m 0) as [E0|N0].
      + rewrite orb_true_r. unfold logb_result. rewrite E0. cbn [Z.eqb]. apply (decode_with_inf f Hf true).
      + rewrite orb_false_r. rewrite <- D. destruct b; symmetry in Eb.
        * apply Z.leb_le in Eb. apply (normal_logb md x s m); auto.
        * apply Z.leb_gt in Eb. destruct (finite_arg f Hf x s m Hx D) as (_ & _ & _ & Hm & _).
          apply (scaled_logb t md x s m); auto. lia.
  Qed.

  Lemma logb_lane_normal t md x : pattern f x -> isnormal_lane t f x = Some true ->
    fof_int f md (logb_exponent f (fabs_lane f x)) = logb_lane t f md x.
  Proof.
    intros Hx E. pose proof (isnormal_decode f Hf t x true Hx E) as Eb. fold M in Eb. pose proof HM.
    unfold logb_lane. cbv zeta. rewrite (isnan_decode f Hf), (isinf_decode f Hf), feq_zero by auto.
    destruct (decode f x) as [|s|s m]; try discriminate. symmetry in Eb. apply Z.leb_le in Eb.
    destruct (Z.eqb_spec m 0); [lia|auto].
  Qed.
  Lemma normals_known t xs : forall ns, omapm (isnormal_lane t f) xs = Some ns ->
    length ns = length xs /\ Forall (fun x => isnormal_lane t f x <> None) xs /\
    (forall i x, nth_error xs i = Some x -> exists b, nth_error ns i = Some b /\ isnormal_lane t f x = Some b).
  Proof.
    induction xs as [|x xs IH]; intros ns E; cbn [omapm] in E.
    - inversion E. subst. split; auto. split; [constructor|]. intros i x Hi. destruct i; discriminate.
    - destruct (isnormal_lane t f x) as [b|] eqn:Ex; try discriminate. destruct (omapm _ xs) as [ns'|]; try discriminate.
      inversion E. subst. destruct (IH ns' eq_refl) as (L & F & N). split; [simpl; lia|]. split.
      + constructor; auto. rewrite Ex. discriminate.
      + intros i y Hi. destruct i; simpl in *; [inversion Hi; subst; eauto|auto].
  Qed.
  Lemma nth_map_combine {A B C} (g : A * B -> C) : forall (l : list A) (m : list B) i a b,
    nth_error l i = Some a -> nth_error m i = Some b -> nth_error (map g (combine l m)) i = Some (g (a, b)).
  Proof.
    induction l as [|a0 l IH]; intros m i a b Ha Hb; destruct i; try discriminate; destruct m; try discriminate; simpl in *.
    - inversion Ha. inversion Hb. auto.
    - auto.
  Qed.
  Lemma map_by_index {A B} (g : A -> B) (xs : list A) (rs : list B) : length rs = length xs ->
    (forall i x, nth_error xs i = Some x -> nth_error rs i = Some (g x)) -> rs = map g xs.
  Proof.
    revert rs. induction xs as [|x xs IH]; intros rs L H; destruct rs as [|r rs]; try discriminate; auto.
    simpl. f_equal.
    - specialize (H O x eq_refl). simpl in H. inversion H. auto.
    - apply IH; [simpl in L; lia|]. intros i y Hi. apply (H (S i) y Hi).
  Qed.
  Lemma forallb_nth (l : list bool) i b : forallb (fun b => b) l = true -> nth_error l i = Some b -> b = true.
  Proof. intros H Hi. rewrite forallb_forall in H. apply H. eapply nth_error_In; eauto. Qed.
  Lemma logb_vector instr t md xs rs : Forall (pattern f) xs -> logb_reg instr t f md xs = Some rs ->
    rs = map (logb_one instr t md) xs /\ (instr = false -> Forall (fun x => isnormal_lane t f x <> None) xs).
  Proof.
    intros HP E. unfold logb_reg in E. destruct instr.
    { inversion E. split; [reflexivity|discriminate]. }
    unfold logb_generic in E. destruct (omapm _ xs) as [ns|] eqn:EN; try discriminate.
    destruct (normals_known t xs ns EN) as (L & F & N). split; auto. rewrite Forall_forall in HP.
    apply map_by_index.
    - destruct (forallb _ ns); [inversion E; rewrite map_length; auto|]. cbv zeta in E.
      destruct (forallb _ _); inversion E; rewrite ?map_length; auto. rewrite !combine_length, !map_length, !combine_length, L. lia.
    - intros i x Hi. destruct (N i x Hi) as (b & Hb & Ex). assert (Hx : pattern f x) by (apply HP; eapply nth_error_In; eauto).
      unfold logb_one. rewrite Ex.
      destruct (forallb _ ns) eqn:EA.
      + assert (b = true) by (eapply forallb_nth; eauto). subst b. cbn [orb]. inversion E.
        rewrite <- logb_lane_normal by auto. apply map_nth_error with (f := fun a => fof_int f md (logb_exponent f (fabs_lane f a))). auto.
      + cbv zeta in E.
        pose proof (nth_map_combine (fun p => fst p || (feq f (snd p) (zero_bits f) || isnan_lane t f (snd p) || isinf_lane t f (snd p))) ns xs i b x Hb Hi) as H1.
        cbn [fst snd] in H1. set (k := b || _) in *.
        assert (H2 : nth_error (map (logb_lane t f md) xs) i = Some (logb_lane t f md x)) by (apply map_nth_error; auto).
        clear EA. destruct (forallb _ _) eqn:EB; inversion E.
        * rewrite (forallb_nth _ i k EB H1). auto.
        * erewrite nth_map_combine; [|exact H1|].
          2: { pose proof (nth_map_combine (fun p => p) xs (map (logb_lane t f md) xs) i x _ Hi H2) as H3. rewrite map_id in H3. exact H3. }
          cbn [fst snd]. auto.
  Qed.
End Format.
