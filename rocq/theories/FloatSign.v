(* The sign of the results of the rounding functions. *)
From Coq Require Import ZArith List Bool Lia Psatz.
From Verif Require Import Prelude X86Lanes FloatSpec FloatRoundSpec FloatBits FloatArith FloatProofs FloatArithProofs FloatRound FloatRoundProofs FloatRoundTop.
Import ListNotations.
Open Scope Z_scope.

Section Format.
  Variable f : fmt.
  Hypothesis Hf : fmt_ok f.

  Lemma fadd_decode md x y a m b n : decode f x = DFin a m -> decode f y = DFin b n -> repr f (num a m + num b n) ->
    decode f (fadd f md x y) =
      DFin (if num a m + num b n =? 0 then (if Bool.eqb a b then a else match md with Downward => true | _ => false end)
            else num a m + num b n <? 0) (Z.abs (num a m + num b n)).
  Proof.
    intros Dx Dy R. unfold fadd. rewrite Dx, Dy. cbv zeta.
    erewrite (fround_exact f Hf); [|lia| |exact R]; [auto|change (2 ^ 0) with 1; lia].
  Qed.
  (* a non-negative sum of numbers that are not both negative *)
  Lemma fadd_pos md x y a m b n : md <> Downward -> decode f x = DFin a m -> decode f y = DFin b n ->
    repr f (num a m + num b n) -> 0 <= num a m + num b n -> a && b = false ->
    decode f (fadd f md x y) = DFin false (num a m + num b n).
  Proof.
    intros Hmd Dx Dy R P S. rewrite (fadd_decode md x y a m b n Dx Dy R). rewrite Z.abs_eq by auto. f_equal.
    destruct (_ =? _); [|apply Z.ltb_ge; auto]. destruct a, b; simpl; try discriminate; auto; destruct md; auto; contradiction.
  Qed.
  Lemma fsub_pos md x y a m b n : md <> Downward -> pattern f y -> decode f x = DFin a m -> decode f y = DFin b n ->
    repr f (num a m - num b n) -> 0 <= num a m - num b n -> a && negb b = false ->
    decode f (fsub f md x y) = DFin false (num a m - num b n).
  Proof.
    intros Hmd Py Dx Dy R P S. unfold fsub.
    assert (E : num a m - num b n = num a m + num (negb b) n) by (destruct b; simpl; lia).
    rewrite E in *. eapply fadd_pos; eauto. rewrite (decode_neg f Hf) by auto. rewrite Dy. auto.
  Qed.
  Lemma decode_pos x : 0 <= x < inf_bits f -> decode f x = DFin false (mag f x).
  Proof. intros. change x with (with_sign f false x) at 1. apply (decode_with_sign f Hf). auto. Qed.
  Lemma fval_decode x v : 0 <= x < inf_bits f -> fval f x = Some v -> decode f x = DFin false v.
  Proof. intros H V. rewrite decode_pos by auto. unfold fval in V. rewrite decode_pos in V by auto. inversion V. auto. Qed.

  Lemma builtin_trunc_sign md x s m : md <> Downward -> pattern f x -> decode f x = DFin s m ->
    decode f (builtin_trunc f md x) = DFin s (m / one f * one f).
  Proof.
    intros Hmd Hx D. unfold builtin_trunc. cbv zeta. rewrite (land_abs f Hf), (guard f Hf), D by auto.
    destruct (finite_arg f Hf x s m Hx D) as (S & Em & Ha & Hm & V & VA & PA & RM).
    pose proof (one_pos f Hf) as HU. pose proof (HuM f Hf) as HuM. pose proof (pow_mb_pos f Hf) as HM.
    pose proof (Z.div_mod m (one f) ltac:(lia)) as DM. pose proof (Z.mod_pos_bound m (one f) HU) as DB.
    destruct (Z.ltb_spec m (2 ^ mb f * one f)) as [L|L].
    2: { pose proof (mag_large f Hf (mag_bits f x) ltac:(lia)) as Z0. rewrite <- Em in Z0. specialize (Z0 L).
         rewrite D. f_equal. lia. }
    destruct (shifter_val f Hf) as (PS & VS & RS). destruct (one_val f Hf) as (P1 & V1 & R1). destruct (zero_val f Hf) as (P0 & V0).
    pose proof (shift_and_back f Hf md false (mag_bits f x) (shifter_bits f) m PA ltac:(lia) RM VA PS VS) as T0.
    cbn [num] in T0.
    pose proof (round_int_cases f md false m (unit f) HuM Hm) as RC. change (2 ^ unit f) with (one f) in RC.
    assert (Q : 0 <= m / one f < 2 ^ mb f) by (split; [apply Z.div_pos; lia|apply Z.div_lt_upper_bound; lia]).
    set (k := round_int md false m (unit f)) in *.
    (* the sum has a positive sign, the difference too *)
    set (t0 := plus_minus f md (mag_bits f x) (shifter_bits f)) in *.
    assert (D0 : decode f t0 = DFin false (k * one f)).
    { unfold t0, plus_minus in *. set (c := fadd f md (mag_bits f x) (shifter_bits f)) in *.
      assert (Pc : pattern f c) by apply (fadd_pattern f Hf).
      assert (Dc : exists mc, decode f c = DFin false mc /\ 0 < mc).
      { pose proof (fval_decode (shifter_bits f) _ RS VS) as DS. pose proof (fval_decode (mag_bits f x) _ Ha VA) as DX.
        unfold c, fadd. rewrite DS, DX. cbv zeta. cbn [num].
        assert (PV : 0 < m + 2 ^ mb f * one f) by nia.
        unfold fround. destruct (Z.eqb_spec (m + 2 ^ mb f * one f) 0); [lia|]. destruct (Z.ltb_spec (m + 2 ^ mb f * one f) 0); [lia|].
        rewrite Z.abs_eq by lia.
        destruct (round_binade f Hf md false (m + 2 ^ mb f * one f)) as [E Lt]; [lia|].
        pose proof (round_bits_range f Hf md false 0 (m + 2 ^ mb f * one f) ltac:(lia) ltac:(lia)).
        rewrite (decode_with_sign f Hf) by lia. eexists. split; eauto. rewrite E.
        assert (0 < round_int md false (m + 2 ^ mb f * one f) (unit f)); [|nia].
        assert (1 <= (m + 2 ^ mb f * one f) / one f) by (apply Z.div_le_lower_bound; nia).
        destruct (round_int_cases f md false (m + 2 ^ mb f * one f) (unit f) HuM ltac:(lia)) as [->|[-> _]]; change (2 ^ unit f) with (one f); lia. }
      destruct Dc as (mc & Dc & Hmc).
      pose proof (fval_decode (shifter_bits f) _ RS VS) as DS.
      assert (MC : mc = (k + 2 ^ mb f) * one f).
      { unfold c, fadd in Dc. rewrite DS, (fval_decode (mag_bits f x) _ Ha VA) in Dc. cbv zeta in Dc. cbn [num] in Dc.
        assert (PV : 0 < m + 2 ^ mb f * one f) by nia.
        unfold fround in Dc. destruct (Z.eqb_spec (m + 2 ^ mb f * one f) 0); [lia|]. destruct (Z.ltb_spec (m + 2 ^ mb f * one f) 0); [lia|].
        rewrite Z.abs_eq in Dc by lia.
        destruct (round_binade f Hf md false (m + 2 ^ mb f * one f)) as [E Lt]; [lia|].
        pose proof (round_bits_range f Hf md false 0 (m + 2 ^ mb f * one f) ltac:(lia) ltac:(lia)).
        rewrite (decode_with_sign f Hf) in Dc by lia. inversion Dc as [Em']. rewrite E.
        change (one f) with (2 ^ unit f) at 1. rewrite (round_int_shift f md false m (unit f) (2 ^ mb f) HuM); auto.
        pose proof (mb_pos f Hf). exists (2 ^ (mb f - 1)). replace (mb f) with (1 + (mb f - 1)) at 1 by lia.
        rewrite Z.pow_add_r by lia. reflexivity. }
      rewrite (fsub_pos md c (shifter_bits f) false mc false (2 ^ mb f * one f)); auto.
      - f_equal. cbn [num]. rewrite MC. lia.
      - cbn [num]. replace (mc - 2 ^ mb f * one f) with (k * one f) by (rewrite MC; lia). apply (repr_int f Hf). lia.
      - cbn [num]. nia. }
    assert (D1 : decode f (fsub f md t0 (if fgt f t0 (mag_bits f x) then one_bits f else zero_bits f)) = DFin false (m / one f * one f)).
    { rewrite (fgt_fin f t0 (mag_bits f x) _ _ T0 VA).
      destruct (Z.ltb_spec m (k * one f)) as [G|G].
      - destruct RC as [RC|[RC RL]]; rewrite RC in *; [nia|].
        rewrite (fsub_pos md t0 (one_bits f) false ((m / one f + 1) * one f) false (one f)); auto using fval_decode.
        + f_equal. cbn [num]. lia.
        + cbn [num]. replace ((m / one f + 1) * one f - one f) with (m / one f * one f) by lia. apply (repr_int f Hf). lia.
        + cbn [num]. nia.
      - destruct RC as [RC|[RC RL]]; rewrite RC in *; [|nia].
        assert (DZ : decode f (zero_bits f) = DFin false 0) by (apply fval_decode; auto; unfold zero_bits; pose proof (inf_pos f Hf); lia).
        rewrite (fsub_pos md t0 (zero_bits f) false (m / one f * one f) false 0); auto.
        + f_equal. cbn [num]. lia.
        + cbn [num]. rewrite Z.sub_0_r. apply (repr_int f Hf). lia.
        + cbn [num]. nia. }
    set (t1 := fsub f md t0 _) in *. assert (PT : pattern f t1) by apply (fsub_pattern f Hf).
    rewrite (xor_abs f Hf) by auto. destruct (decode_fin f Hf t1 false _ PT D1) as (a & Ha' & Em' & ->).
    pose proof (inf_lt f Hf). rewrite (lor_sign2 f Hf) by lia. rewrite (decode_with_sign f Hf) by auto.
    rewrite orb_false_r, S, Em'. auto.
  Qed.
End Format.

Lemma trunc_sign t f md x s m : real_fmt f -> pattern f x -> decode f x = DFin s m ->
  t = RInstr \/ (md <> Downward /\ (t = ROther \/ f = binary64)) ->
  decode f (trunc_lane t f md x) = DFin s (m / one f * one f).
Proof.
  intros Hr Hx D H. pose proof (real_ok f Hr) as Hf.
  assert (I : decode f (fround_to_int f ToZero x) = DFin s (m / one f * one f)).
  { destruct (fround_to_int_ok f Hf ToZero x Hx) as [_ E]. rewrite D in E. rewrite E. f_equal. f_equal.
    unfold round_int. cbn [round_up_mag]. change (2 ^ unit f) with (one f). destruct (_ =? _); auto. }
  unfold trunc_lane. destruct H as [->|[Hmd [->| ->]]]; auto.
  - apply builtin_trunc_sign; auto.
  - destruct t; auto; apply builtin_trunc_sign; auto.
Qed.
