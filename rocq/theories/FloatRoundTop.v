(* The rounding functions of every target. *)
From Coq Require Import ZArith List Bool Lia Psatz.
From Verif Require Import Prelude X86Lanes FloatSpec FloatRoundSpec FloatBits FloatArith FloatProofs FloatArithProofs FloatRound FloatRoundProofs.
Import ListNotations.
Open Scope Z_scope.

(* ------------------------------------------------------------------ *)
(* the conversions to 32-bit integers and back *)
Lemma quot_num s m u : 0 < u -> 0 <= m -> Z.quot (num s m) u = num s (m / u).
Proof.
  intros. destruct s; simpl.
  - rewrite Z.quot_opp_l by lia. rewrite Z.quot_div_nonneg by lia. auto.
  - apply Z.quot_div_nonneg; lia.
Qed.

Lemma exp32 x : pattern binary32 x -> Z.land x 0x7f800000 = mag_bits binary32 x / 2 ^ 23 * 2 ^ 23.
Proof.
  intros Hx. replace 0x7f800000 with (Z.shiftl (Z.ones 8) 23) by reflexivity.
  unfold mag_bits. change (fw binary32 - 1) with 31.
  rewrite <- (Z.shiftl_mul_pow2 _ 23) by lia. rewrite <- (Z.shiftr_div_pow2 _ 23) by lia. rewrite <- Z.land_ones by lia.
  apply Z.bits_inj'. intros i Hi. rewrite Z.land_spec, !Z.shiftl_spec by lia.
  destruct (Z_lt_le_dec i 23).
  - rewrite !(Z.testbit_neg_r _ (i - 23)) by lia. apply andb_false_r.
  - rewrite Z.shiftr_spec by lia. replace (i - 23 + 23) with i by lia. rewrite Z.land_spec. f_equal.
    rewrite !testbit_ones by lia. destruct (Z.ltb_spec (i - 23) 8), (Z.ltb_spec i 31); auto; lia.
Qed.

Lemma cvttps_val x s m : pattern binary32 x -> decode binary32 x = DFin s m -> m < 2 ^ 23 * one binary32 ->
  sgn 32 (cvttps x) = num s (m / one binary32).
Proof.
  intros Hx D L. destruct (finite_arg binary32 ok32 x s m Hx D) as (S & Em & Ha & Hm & _).
  assert (EB : (x / 2 ^ 23) mod 2 ^ 8 = mag_bits binary32 x / 2 ^ 23) by (apply (exp_of_mag binary32 ok32)).
  assert (FB : x mod 2 ^ 23 = mag_bits binary32 x mod 2 ^ 23) by (apply (frac_of_mag binary32 ok32)).
  assert (SB : x / 2 ^ 31 = if s then 1 else 0).
  { destruct Hx as [H0 H1]. change (2 ^ fw binary32) with (2 * 2 ^ 31) in H1. unfold sign_of in S. change (fw binary32 - 1) with 31 in S.
    assert (0 <= x / 2 ^ 31 < 2) by (split; [apply Z.div_pos; lia|apply Z.div_lt_upper_bound; lia]).
    assert (x / 2 ^ 31 = 0 \/ x / 2 ^ 31 = 1) as [E|E] by lia; rewrite E in *; simpl in S; subst s; auto. }
  unfold cvttps. rewrite EB, FB, SB. set (a := mag_bits binary32 x) in *. clearbody a. clear EB FB SB D Hx S.
  assert (OU : one binary32 = 2 ^ 149) by reflexivity. rewrite OU in *.
  change (inf_bits binary32) with (255 * 2 ^ 23) in Ha.
  pose proof (Z.div_mod a (2 ^ 23) ltac:(lia)) as DM. pose proof (Z.mod_pos_bound a (2 ^ 23) ltac:(lia)) as DB.
  assert (Q : 0 <= a / 2 ^ 23) by (apply Z.div_pos; lia).
  set (e := a / 2 ^ 23) in *. set (r := a mod 2 ^ 23) in *.
  assert (MV : m = if e =? 0 then r else (2 ^ 23 + r) * 2 ^ (e - 1)).
  { rewrite Em. unfold mag. change (mb binary32) with 23. fold e r.
    destruct (Z.ltb_spec a (2 ^ 23)); destruct (Z.eqb_spec e 0); try lia; nia. }
  assert (E150 : e < 150).
  { destruct (Z_lt_le_dec e 150); auto. exfalso. destruct (Z.eqb_spec e 0); [lia|].
    assert (2 ^ 149 <= 2 ^ (e - 1)) by (apply Z.pow_le_mono_r; lia). nia. }
  destruct (Z.leb_spec 150 e); [lia|].
  set (t := if e =? 0 then r else r + 2 ^ 23).
  assert (TQ : t / 2 ^ (150 - e) = m / 2 ^ 149).
  { rewrite MV. unfold t. destruct (Z.eqb_spec e 0) as [E0|N0].
    - rewrite E0. rewrite !Z.div_small; auto; split; try lia.
    - replace (2 ^ 149) with (2 ^ (150 - e) * 2 ^ (e - 1)) by (rewrite <- Z.pow_add_r by lia; f_equal; lia).
      rewrite Z.div_mul_cancel_r by (apply Z.pow_nonzero; lia). f_equal. lia. }
  rewrite TQ. assert (B : 0 <= m / 2 ^ 149 < 2 ^ 23) by (split; [apply Z.div_pos; lia|apply Z.div_lt_upper_bound; lia]).
  set (q := m / 2 ^ 149) in *. clearbody q. clear - B E150.
  destruct (Z.eqb_spec e 255); [lia|]. cbn [orb].
  destruct s; cbn [Z.eqb num].
  - destruct (Z.ltb_spec (- q) (- 2 ^ 31)); [lia|]. destruct (Z.leb_spec (2 ^ 31) (- q)); [lia|]. cbn [orb].
    unfold uns, sgn. destruct (Z.eq_dec q 0) as [->|N]; [reflexivity|].
    replace (- q) with (2 ^ 32 - q + (-1) * 2 ^ 32) by lia. rewrite Z.mod_add, Z.mod_small by lia.
    change (2 ^ (32 - 1)) with (2 ^ 31). destruct (Z.ltb_spec (2 ^ 32 - q) (2 ^ 31)); lia.
  - destruct (Z.ltb_spec q (- 2 ^ 31)); [lia|]. destruct (Z.leb_spec (2 ^ 31) q); [lia|]. cbn [orb].
    unfold uns, sgn. rewrite Z.mod_small by lia. change (2 ^ (32 - 1)) with (2 ^ 31).
    destruct (Z.ltb_spec q (2 ^ 31)); lia.
Qed.

Definition real_fmt (f : fmt) : Prop := f = binary32 \/ f = binary64.
Lemma real_ok f : real_fmt f -> fmt_ok f.
Proof. intros [->| ->]; [apply ok32|apply ok64]. Qed.

Lemma sse_cvt_ok md x s m : pattern binary32 x -> decode binary32 x = DFin s m -> m < 2 ^ 23 * one binary32 ->
  trunc_ok binary32 x (sse_cvt binary32 md x).
Proof.
  intros Hx D L. split; [apply (fof_int_pattern binary32 ok32)|]. rewrite D.
  destruct (finite_arg binary32 ok32 x s m Hx D) as (S & Em & Ha & Hm & _).
  assert (B : 0 <= m / one binary32 < 2 ^ 23).
  { pose proof (one_pos binary32 ok32). split; [apply Z.div_pos; lia|apply Z.div_lt_upper_bound; lia]. }
  unfold sse_cvt. rewrite (cvttps_val x s m Hx D L). rewrite (fof_int_val binary32 ok32).
  - f_equal. destruct s; cbn [num]; lia.
  - change (2 ^ mb binary32) with (2 ^ 23). destruct s; cbn [num]; lia.
Qed.
Lemma neon_cvt_ok md x s m : pattern binary32 x -> decode binary32 x = DFin s m -> m < 2 ^ 23 * one binary32 ->
  trunc_ok binary32 x (neon_cvt binary32 md x).
Proof.
  intros Hx D L. split; [apply (fof_int_pattern binary32 ok32)|]. rewrite D.
  destruct (finite_arg binary32 ok32 x s m Hx D) as (S & Em & Ha & Hm & _).
  pose proof (one_pos binary32 ok32).
  assert (B : 0 <= m / one binary32 < 2 ^ 23) by (split; [apply Z.div_pos; lia|apply Z.div_lt_upper_bound; lia]).
  unfold neon_cvt. rewrite D. cbv zeta. change (2 ^ unit binary32) with (one binary32). rewrite quot_num by lia.
  rewrite Z.min_r, Z.max_r by (destruct s; cbn [num]; lia). rewrite (fof_int_val binary32 ok32).
  - f_equal. destruct s; cbn [num]; lia.
  - change (2 ^ mb binary32) with (2 ^ 23). destruct s; cbn [num]; lia.
Qed.

(* the exponent test of the SSE2 implementation *)
Lemma sse_guard x : pattern binary32 x ->
  (sgn 32 (Z.land x 0x7f800000) <? 0x4b000000) = match decode binary32 x with DFin _ m => m <? 2 ^ 23 * one binary32 | _ => false end.
Proof.
  intros Hx. rewrite exp32 by auto. pose proof (mag_bits_bound binary32 ok32 x) as B. change (fw binary32 - 1) with 31 in B.
  pose proof (Z.div_mod (mag_bits binary32 x) (2 ^ 23) ltac:(lia)) as DM. pose proof (Z.mod_pos_bound (mag_bits binary32 x) (2 ^ 23) ltac:(lia)) as DB.
  assert (0 <= mag_bits binary32 x / 2 ^ 23) by (apply Z.div_pos; lia).
  assert (SG : sgn 32 (mag_bits binary32 x / 2 ^ 23 * 2 ^ 23) = mag_bits binary32 x / 2 ^ 23 * 2 ^ 23).
  { unfold sgn. change (2 ^ (32 - 1)) with (2 ^ 31). destruct (Z.ltb_spec (mag_bits binary32 x / 2 ^ 23 * 2 ^ 23) (2 ^ 31)); lia. }
  rewrite SG. change 0x4b000000 with (150 * 2 ^ 23).
  assert (IB : inf_bits binary32 = 255 * 2 ^ 23) by reflexivity.
  assert (EQ : (mag_bits binary32 x / 2 ^ 23 * 2 ^ 23 <? 150 * 2 ^ 23) = (mag_bits binary32 x <? 150 * 2 ^ 23)).
  { destruct (Z.ltb_spec (mag_bits binary32 x / 2 ^ 23 * 2 ^ 23) (150 * 2 ^ 23)), (Z.ltb_spec (mag_bits binary32 x) (150 * 2 ^ 23)); auto; lia. }
  rewrite EQ. rewrite (decode_split binary32 ok32). unfold decode_mag. rewrite IB.
  assert (MC : mag binary32 (150 * 2 ^ 23) = 2 ^ 23 * one binary32) by reflexivity.
  destruct (Z.ltb_spec (mag_bits binary32 x) (255 * 2 ^ 23)).
  - rewrite <- MC. pose proof (mag_compare binary32 ok32 (mag_bits binary32 x) (150 * 2 ^ 23) ltac:(lia) ltac:(lia)) as C.
    unfold Z.ltb. rewrite C. auto.
  - destruct (Z.ltb_spec (mag_bits binary32 x) (150 * 2 ^ 23)); [lia|]. destruct (_ =? _); auto.
Qed.

Lemma trunc_lane_ok t f md x : real_fmt f -> pattern f x -> trunc_ok f x (trunc_lane t f md x).
Proof.
  intros Hr Hx. pose proof (real_ok f Hr) as Hf. unfold trunc_lane. destruct t.
  - apply instr_trunc_ok; auto.
  - destruct Hr as [->| ->]; cbn [fw binary32 binary64 Z.eqb Pos.eqb]; [|apply builtin_trunc_ok; auto using ok64].
    rewrite sse_guard by auto. destruct (decode binary32 x) as [|s|s m] eqn:D.
    1,2: apply trunc_self; auto; intros ? ?; rewrite D; discriminate.
    destruct (Z.ltb_spec m (2 ^ 23 * one binary32)) as [L|L]; [apply (sse_cvt_ok md x s m); auto|].
    apply trunc_self; auto. intros ? ?; rewrite D; intros E; inversion E; subst; auto.
  - destruct Hr as [->| ->]; cbn [fw binary32 binary64 Z.eqb Pos.eqb]; [|apply builtin_trunc_ok; auto using ok64].
    rewrite (fabs_val binary32 ok32), (guard binary32 ok32) by auto. destruct (decode binary32 x) as [|s|s m] eqn:D.
    1,2: apply trunc_self; auto; intros ? ?; rewrite D; discriminate.
    change (2 ^ mb binary32) with (2 ^ 23).
    destruct (Z.ltb_spec m (2 ^ 23 * one binary32)) as [L|L]; [apply (neon_cvt_ok md x s m); auto|].
    apply trunc_self; auto. intros ? ?; rewrite D; intros E; inversion E; subst; auto.
  - apply builtin_trunc_ok; auto.
Qed.

(* ------------------------------------------------------------------ *)
(* from values to the specification *)
Lemma result_of_value (r : Z -> Z -> Z -> Prop) f (g : bool -> Z -> Z) x y : fmt_ok f -> pattern f x ->
  value_ok f g x y ->
  (forall s m, decode f x = DFin s m -> exists k, g s m = k * one f /\ r (one f) (num s m) k) ->
  (forall s m, m mod one f = 0 -> 0 <= m -> g s m = num s m) ->
  integer_result r f (decode f x) (decode f y).
Proof.
  intros Hf Hx [Py Vy] Hg Hi. unfold integer_result. destruct (decode f x) as [|s|s m] eqn:D; auto.
  destruct (Hg s m eq_refl) as (k & Ek & Rk). unfold fval in Vy.
  destruct (decode f y) as [|?|s' m'] eqn:D'; try discriminate. inversion Vy as [V].
  exists s', k, m'. split; auto. split; [congruence|]. split; auto. intros L.
  destruct (finite_arg f Hf x s m Hx D) as (_ & Em & Ha & Hm & _).
  destruct (finite_arg f Hf y s' m' Py D') as (_ & _ & _ & Hm' & _).
  pose proof (mag_large f Hf (mag_bits f x) ltac:(lia)) as Z0. rewrite <- Em in Z0. specialize (Z0 L).
  rewrite (Hi s m Z0 Hm) in V. pose proof (one_pos f Hf). pose proof (pow_mb_pos f Hf).
  assert (0 < m) by nia. destruct s, s'; cbn [num] in V; f_equal; lia.
Qed.

Lemma c36_trunc t f md x : real_fmt f -> pattern f x ->
  integer_result (rounded_to ToZero) f (decode f x) (decode f (trunc_lane t f md x)).
Proof.
  intros Hr Hx. pose proof (real_ok f Hr) as Hf. pose proof (one_pos f Hf) as HU.
  apply (result_of_value _ f (fun s m => num s (m / one f * one f))); auto.
  - apply trunc_lane_ok; auto.
  - intros s m D. destruct (finite_arg f Hf x s m Hx D) as (_ & _ & _ & Hm & _).
    pose proof (Z.div_mod m (one f) ltac:(lia)) as E. pose proof (Z.mod_pos_bound m (one f) HU) as B.
    set (u := one f) in *. set (q := m / u) in *. assert (0 <= q) by (apply Z.div_pos; lia).
    exists (num s q). split; [destruct s; cbn [num]; lia|]. unfold rounded_to. destruct s; cbn [num]; split; intros; nia.
  - intros s m Z0 Hm. pose proof (Z.div_mod m (one f) ltac:(lia)). f_equal. lia.
Qed.
Lemma instr_value f md x : fmt_ok f -> pattern f x ->
  value_ok f (fun s m => num s (round_int md s m (unit f) * one f)) x (fround_to_int f md x).
Proof.
  intros Hf Hx. destruct (fround_to_int_ok f Hf md x Hx) as [P E]. split; auto.
  destruct (decode f x); auto. unfold fval. rewrite E. auto.
Qed.
Lemma round_int_exact f md s m : fmt_ok f -> m mod one f = 0 -> round_int md s m (unit f) * one f = m.
Proof.
  intros Hf Z0. pose proof (one_pos f Hf). pose proof (Z.div_mod m (one f) ltac:(lia)). unfold round_int.
  change (2 ^ unit f) with (one f). destruct (Z.eqb_spec (m / one f * one f) m); lia.
Qed.
Lemma round_int_result f md x y : fmt_ok f -> pattern f x ->
  value_ok f (fun s m => num s (round_int md s m (unit f) * one f)) x y ->
  integer_result (rounded_to md) f (decode f x) (decode f y).
Proof.
  intros Hf Hx V. eapply result_of_value; eauto.
  - intros s m D. destruct (finite_arg f Hf x s m Hx D) as (_ & _ & _ & Hm & _).
    exists (num s (round_int md s m (unit f))). split; [destruct s; cbn [num]; lia|].
    apply round_int_spec; auto. apply HuM; auto.
  - intros s m Z0 Hm. simpl. rewrite round_int_exact; auto.
Qed.
Lemma c36_nearbyint g t f md x : real_fmt f -> pattern f x ->
  integer_result (rounded_to md) f (decode f x) (decode f (nearbyint_lane g t f md x)).
Proof.
  intros Hr Hx. pose proof (real_ok f Hr) as Hf. apply round_int_result; auto.
  unfold nearbyint_lane. destruct t; try (apply builtin_nearbyint_ok; auto).
  destruct g; [apply builtin_nearbyint_ok; auto|apply instr_value; auto].
Qed.
Lemma c36_floor t f md x : real_fmt f -> pattern f x ->
  integer_result (rounded_to Downward) f (decode f x) (decode f (floor_lane t f md x)).
Proof.
  intros Hr Hx. pose proof (real_ok f Hr) as Hf. pose proof (one_pos f Hf) as HU.
  assert (B : forall t', integer_result (rounded_to Downward) f (decode f x) (decode f (builtin_floor (trunc_lane t' f md) f md x))).
  { intros t'. apply (result_of_value _ f (fun s m => num s m / one f * one f)); auto.
    - apply builtin_floor_ok; auto. apply trunc_lane_ok; auto.
    - intros s m D. exists (num s m / one f). split; auto. unfold rounded_to.
      pose proof (Z.div_mod (num s m) (one f) ltac:(lia)). pose proof (Z.mod_pos_bound (num s m) (one f) HU). lia.
    - intros s m Z0 Hm. simpl. pose proof (Z.div_mod m (one f) ltac:(lia)) as E. rewrite Z0 in E.
      replace (num s m) with (num s (m / one f) * one f) by (destruct s; cbn [num]; lia).
      rewrite Z.div_mul by lia. auto. }
  unfold floor_lane. destruct t; auto. apply round_int_result; auto. apply instr_value; auto.
Qed.
Lemma c36_ceil t f md x : real_fmt f -> pattern f x ->
  integer_result (rounded_to Upward) f (decode f x) (decode f (ceil_lane t f md x)).
Proof.
  intros Hr Hx. pose proof (real_ok f Hr) as Hf. pose proof (one_pos f Hf) as HU.
  assert (B : forall t', integer_result (rounded_to Upward) f (decode f x) (decode f (builtin_ceil (trunc_lane t' f md) f md x))).
  { intros t'. apply (result_of_value _ f (fun s m => - (- num s m / one f) * one f)); auto.
    - apply builtin_ceil_ok; auto. apply trunc_lane_ok; auto.
    - intros s m D. exists (- (- num s m / one f)). split; auto. unfold rounded_to.
      pose proof (Z.div_mod (- num s m) (one f) ltac:(lia)). pose proof (Z.mod_pos_bound (- num s m) (one f) HU). lia.
    - intros s m Z0 Hm. simpl. pose proof (Z.div_mod m (one f) ltac:(lia)) as E. rewrite Z0 in E.
      replace (num s m) with (num s (m / one f) * one f) by (destruct s; cbn [num]; lia).
      replace (- (num s (m / one f) * one f)) with (- num s (m / one f) * one f) by lia.
      rewrite Z.div_mul by lia. lia. }
  unfold ceil_lane. destruct t; auto. apply round_int_result; auto. apply instr_value; auto.
Qed.
Lemma half_up_result f x y : fmt_ok f -> pattern f x ->
  value_ok f (fun s m => num s (half_up f m * one f)) x y ->
  integer_result rounded_half_away f (decode f x) (decode f y).
Proof.
  intros Hf Hx V. pose proof (one_pos f Hf) as HU. eapply result_of_value; eauto.
  - intros s m D. destruct (finite_arg f Hf x s m Hx D) as (_ & _ & _ & Hm & _).
    exists (num s (half_up f m)). split; [destruct s; cbn [num]; lia|].
    pose proof (Z.div_mod m (one f) ltac:(lia)) as E. pose proof (Z.mod_pos_bound m (one f) HU) as B.
    assert (Q : 0 <= m / one f) by (apply Z.div_pos; lia).
    unfold rounded_half_away, half_up. set (u := one f) in *. set (q := m / u) in *. set (r := m mod u) in *.
    assert (P : 0 <= q * u) by nia.
    destruct (Z.leb_spec u (2 * r)); destruct s; cbn [num]; split; try lia.
  - intros s m Z0 Hm. simpl. unfold half_up. rewrite Z0. destruct (Z.leb_spec (one f) (2 * 0)); [lia|].
    f_equal. pose proof (Z.div_mod m (one f) ltac:(lia)). lia.
Qed.
Lemma c36_round a t f md x : real_fmt f -> pattern f x ->
  integer_result rounded_half_away f (decode f x) (decode f (round_lane a t f md x)).
Proof.
  intros Hr Hx. pose proof (real_ok f Hr) as Hf. pose proof (one_pos f Hf) as HU. apply half_up_result; auto.
  assert (PM : pattern f (mag_bits f x)) by (apply pattern_mag; auto).
  assert (B : forall t', value_ok f (fun s m => num s (half_up f m * one f)) x (builtin_round (trunc_lane t' f md) f md x)).
  { intros t'. apply builtin_round_ok; auto. apply trunc_lane_ok; auto. }
  unfold round_lane. destruct t; auto.
  - destruct a; [|apply x86_rounded_ok; auto; apply instr_trunc_ok; auto].
    destruct (decode f x) as [|s|s m] eqn:D.
    + split; [apply pattern_nan; auto|]. rewrite D. apply decode_nan; auto.
    + pose proof (inf_lt f Hf). pose proof (inf_pos f Hf).
      split; [apply with_sign_pattern; auto; lia|]. rewrite D. apply decode_with_inf; auto.
    + destruct (finite_arg f Hf x s m Hx D) as (_ & _ & _ & Hm & _).
      assert (EH : (2 * m + 2 ^ unit f) / 2 ^ (unit f + 1) = half_up f m).
      { change (2 ^ unit f) with (one f). rewrite Z.pow_add_r by (pose proof (HuM f Hf); lia). change (2 ^ 1) with 2. fold (one f).
        pose proof (Z.div_mod m (one f) ltac:(lia)) as E. pose proof (Z.mod_pos_bound m (one f) HU) as BB.
        unfold half_up. symmetry. destruct (Z.leb_spec (one f) (2 * (m mod one f))).
        - apply (Z.div_unique _ _ _ (2 * (m mod one f) - one f)); lia.
        - apply (Z.div_unique _ _ _ (2 * (m mod one f) + one f)); lia. }
      rewrite EH. change (2 ^ unit f) with (one f).
      assert (Q : 0 <= m / one f) by (apply Z.div_pos; lia).
      assert (HR : repr f (half_up f m * one f)).
      { apply (int_repr f Hf x s m _ Hx D). unfold half_up. destruct (Z.leb_spec (one f) (2 * (m mod one f))); [right|auto]. split; auto. lia. }
      assert (HN : 0 <= half_up f m * one f) by (unfold half_up; destruct (_ <=? _); nia).
      destruct HR as (b & Hb & Eb). rewrite Z.abs_eq in Eb by auto. rewrite <- Eb.
      pose proof (round_bits_exact f Hf ToZero s 0 b ltac:(lia) Hb) as X. rewrite Z.pow_0_r, Z.mul_1_r in X. rewrite X.
      pose proof (inf_lt f Hf). split; [apply with_sign_pattern; auto; lia|]. rewrite D. unfold fval. rewrite decode_with_sign by auto. rewrite Eb. auto.
  - destruct Hr as [->| ->]; cbn [fw binary32 binary64 Z.eqb Pos.eqb]; auto.
    rewrite Z.land_comm, (land_abs binary32 ok32), (guard binary32 ok32) by auto.
    assert (SELF : (forall s m, decode binary32 x = DFin s m -> 2 ^ mb binary32 * one binary32 <= m) ->
       value_ok binary32 (fun s m => num s (half_up binary32 m * one binary32)) x x).
    { intros L. split; auto. destruct (decode binary32 x) as [|s|s m] eqn:D; auto.
      destruct (finite_arg binary32 ok32 x s m Hx D) as (_ & Em & Ha & Hm & V & _). rewrite V. do 2 f_equal.
      pose proof (mag_large binary32 ok32 (mag_bits binary32 x) ltac:(lia)) as Z0. rewrite <- Em in Z0. specialize (Z0 (L s m eq_refl)).
      unfold half_up. rewrite Z0. destruct (Z.leb_spec (one binary32) (2 * 0)); [lia|]. pose proof (Z.div_mod m (one binary32) ltac:(lia)). lia. }
    destruct (decode binary32 x) as [|s|s m] eqn:D.
    1,2: apply SELF; intros; discriminate.
    destruct (Z.ltb_spec m (2 ^ mb binary32 * one binary32)) as [L|L].
    + apply x86_rounded_ok; auto. apply (sse_cvt_ok md x s m); auto.
    + apply SELF. intros ? ? E; inversion E; subst; auto.
Qed.
