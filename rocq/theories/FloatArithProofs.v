(* Rounding and exact arithmetic on bit patterns. *)
From Coq Require Import ZArith List Bool Lia Psatz.
From Verif Require Import Prelude X86Lanes FloatSpec FloatRoundSpec FloatBits FloatArith FloatProofs.
Import ListNotations.
Open Scope Z_scope.

(* the number of a pattern *)
Definition fval (f : fmt) (x : Z) : option Z :=
  match decode f x with DFin s m => Some (num s m) | _ => None end.
(* numbers (in units) that the format has *)
Definition repr (f : fmt) (v : Z) : Prop :=
  exists a, 0 <= a < inf_bits f /\ mag f a = Z.abs v.

Section Format.
  Variable f : fmt.
  Hypothesis Hf : fmt_ok f.
  Let M := 2 ^ mb f.
  Let HM : 2 <= M := pow_mb_pos f Hf.

  Lemma unit_pos : mb f <= unit f.
  Proof. unfold unit. pose proof (bias_pos f Hf). lia. Qed.
  Lemma mb_lt_bias : mb f + 4 <= bias f.
  Proof. destruct Hf as [? [? ?]]. unfold mb. lia. Qed.
  Lemma one_pos : 0 < one f.
  Proof. unfold one. apply Z.pow_pos_nonneg; [lia|]. pose proof unit_pos. pose proof (mb_pos f Hf). lia. Qed.

  Lemma mag_qr q r : 0 < q -> 0 <= r < M -> mag f (q * M + r) = (M + r) * 2 ^ (q - 1).
  Proof.
    intros Hq Hr. unfold mag. fold M. destruct (Z.ltb_spec (q * M + r) M); [nia|].
    rewrite Z.div_add_l by lia. rewrite (Z.div_small r) by lia.
    rewrite (Z.add_comm (q * M) r), Z.mod_add by lia. rewrite Z.mod_small by lia. f_equal. f_equal. lia.
  Qed.
  Lemma mag_inf : mag f (inf_bits f) = 2 ^ (mb f + 2 * bias f).
  Proof.
    unfold inf_bits. fold M. pose proof (pow_eb_pos f Hf). pose proof (pow_bias f Hf). pose proof (bias_pos f Hf).
    replace ((2 ^ eb f - 1) * M) with ((2 ^ eb f - 1) * M + 0) by lia.
    rewrite mag_qr by lia. rewrite Z.add_0_r. unfold M. pose proof (mb_pos f Hf). rewrite <- Z.pow_add_r by lia. f_equal. lia.
  Qed.

  Lemma floor_bits_spec m : 0 <= m ->
    0 <= floor_bits f m /\ mag f (floor_bits f m) <= m < mag f (floor_bits f m + 1).
  Proof.
    intros Hm. unfold floor_bits. fold M. pose proof (mb_pos f Hf) as Hmb.
    destruct (Z.ltb_spec m M) as [L|L].
    - rewrite (mag_small f m) by (fold M; lia). split; [lia|].
      destruct (Z.eq_dec (m + 1) M) as [E|N].
      + rewrite E. pose proof (mag_qr 1 0 ltac:(lia) ltac:(lia)) as Q.
        replace (1 * M + 0) with M in Q by lia. rewrite Q. change (2 ^ (1 - 1)) with 1. lia.
      + rewrite (mag_small f (m + 1)) by (fold M; lia). lia.
    - cbv zeta. pose proof (Z.log2_spec m ltac:(lia)) as [L1 L2].
      assert (Le : mb f <= Z.log2 m) by (apply Z.log2_le_pow2; fold M; lia).
      set (e := Z.log2 m - mb f) in *.
      assert (P : 0 < 2 ^ e) by (apply Z.pow_pos_nonneg; lia).
      assert (E1 : 2 ^ Z.log2 m = M * 2 ^ e) by (unfold M; rewrite <- Z.pow_add_r by lia; f_equal; lia).
      assert (E2 : 2 ^ Z.succ (Z.log2 m) = 2 * M * 2 ^ e) by (rewrite Z.pow_succ_r by lia; rewrite E1; lia).
      rewrite E1 in L1. rewrite E2 in L2. clear E1 E2.
      assert (D : M <= m / 2 ^ e < 2 * M).
      { split; [apply Z.div_le_lower_bound; lia|apply Z.div_lt_upper_bound; lia]. }
      pose proof (Z.div_mod m (2 ^ e) ltac:(lia)) as DM.
      pose proof (Z.mod_pos_bound m (2 ^ e) P) as DB.
      set (d := m / 2 ^ e) in *. split; [nia|].
      rewrite mag_qr by lia.
      replace (M + (d - M)) with d by lia. replace (e + 1 - 1) with e by lia. split; [lia|].
      destruct (Z.eq_dec d (2 * M - 1)) as [Ed|Nd].
      + replace ((e + 1) * M + (d - M) + 1) with ((e + 2) * M + 0) by lia. rewrite mag_qr by lia.
        replace (e + 2 - 1) with (1 + e) by lia. rewrite Z.pow_add_r by lia. change (2 ^ 1) with 2. nia.
      + replace ((e + 1) * M + (d - M) + 1) with ((e + 1) * M + (d + 1 - M)) by lia. rewrite mag_qr by lia.
        replace (e + 1 - 1) with e by lia. nia.
  Qed.

  Lemma mag_le a b : 0 <= a -> a <= b -> mag f a <= mag f b.
  Proof. intros. destruct (Z.eq_dec a b) as [->|]; [lia|]. pose proof (mag_mono f Hf a b). lia. Qed.
  Lemma mag_inj a b : 0 <= a -> 0 <= b -> mag f a = mag f b -> a = b.
  Proof.
    intros. destruct (Z_lt_le_dec a b); [pose proof (mag_mono f Hf a b); lia|].
    destruct (Z_lt_le_dec b a); [pose proof (mag_mono f Hf b a); lia|lia].
  Qed.
  Lemma floor_bits_mag a : 0 <= a -> floor_bits f (mag f a) = a.
  Proof.
    intros Ha. pose proof (mag_nonneg f Hf a Ha). destruct (floor_bits_spec (mag f a) ltac:(lia)) as (B0 & B1 & B2).
    destruct (Z_lt_le_dec (floor_bits f (mag f a)) a).
    - pose proof (mag_le (floor_bits f (mag f a) + 1) a). lia.
    - destruct (Z.eq_dec (floor_bits f (mag f a)) a); auto.
      pose proof (mag_mono f Hf a (floor_bits f (mag f a))). lia.
  Qed.
  Lemma inf_pos : 0 < inf_bits f.
  Proof. pose proof (min_lt_inf f Hf). unfold norm_min_bits in H. fold M in H. lia. Qed.

  Lemma round_bits_exact md s k a : 0 <= k -> 0 <= a < inf_bits f -> round_bits f md s (mag f a * 2 ^ k) k = a.
  Proof.
    intros Hk Ha. unfold round_bits. rewrite Z.div_mul by (apply Z.pow_nonzero; lia).
    rewrite floor_bits_mag by lia. rewrite Z.min_l by (rewrite (max_val f); lia).
    rewrite Z.eqb_refl. auto.
  Qed.
  Lemma round_bits_range md s k n : 0 <= k -> 0 <= n -> 0 <= round_bits f md s n k <= inf_bits f.
  Proof.
    intros Hk Hn. unfold round_bits.
    destruct (floor_bits_spec (n / 2 ^ k) (Z.div_pos _ _ Hn (Z.pow_pos_nonneg 2 k ltac:(lia) Hk))) as (B0 & _).
    pose proof (max_val f) as E. pose proof inf_pos.
    set (a := Z.min _ _). assert (0 <= a <= inf_bits f - 1) by lia.
    destruct (_ =? _); [lia|]. destruct (round_up_mag _ _ _ _); lia.
  Qed.

  (* ---------------------------------------------------------------- *)
  (* numbers the format has *)
  Lemma repr_scaled d e v : 0 <= e -> 0 <= d <= 2 * M -> Z.abs v = d * 2 ^ e -> Z.abs v < mag f (inf_bits f) -> repr f v.
  Proof.
    intros He Hd E B. exists (floor_bits f (Z.abs v)).
    destruct (floor_bits_spec (Z.abs v) ltac:(lia)) as (B0 & B1 & B2).
    assert (X : mag f (floor_bits f (Z.abs v)) = Z.abs v).
    { set (m := Z.abs v) in *. clear B B0 B1 B2. unfold floor_bits. fold M.
      destruct (Z.ltb_spec m M); [apply mag_small; fold M; lia|]. cbv zeta.
      pose proof (mb_pos f Hf) as Hmb.
      pose proof (Z.log2_spec m ltac:(lia)) as [L1 L2].
      assert (Le : mb f <= Z.log2 m) by (apply Z.log2_le_pow2; fold M; lia).
      assert (LU : Z.log2 m <= mb f + 1 + e).
      { assert (m <= 2 ^ (mb f + 1 + e)).
        { rewrite !Z.pow_add_r by lia. fold M. change (2 ^ 1) with 2. rewrite E.
          apply Z.mul_le_mono_nonneg_r; [apply Z.pow_nonneg; lia|lia]. }
        destruct (Z_lt_le_dec (mb f + 1 + e) (Z.log2 m)); [|lia].
        assert (2 ^ (mb f + 1 + e) < 2 ^ Z.log2 m) by (apply Z.pow_lt_mono_r; lia). lia. }
      set (e' := Z.log2 m - mb f) in *.
      assert (P : 0 < 2 ^ e') by (apply Z.pow_pos_nonneg; lia).
      assert (DIV : (2 ^ e' | m)).
      { destruct (Z_le_gt_dec e' e).
        - exists (d * 2 ^ (e - e')). rewrite E, <- Z.mul_assoc, <- Z.pow_add_r by lia. do 2 f_equal. lia.
        - assert (e' = e + 1) by lia.
          exists M. assert (m <= M * 2 ^ e').
          { rewrite H0, Z.pow_add_r by lia. change (2 ^ 1) with 2. rewrite E.
            assert (0 < 2 ^ e) by (apply Z.pow_pos_nonneg; lia). nia. }
          assert (M * 2 ^ e' <= m).
          { unfold M. rewrite <- Z.pow_add_r by lia. replace (mb f + e') with (Z.log2 m) by lia. lia. }
          lia. }
      destruct DIV as [c Ec].
      assert (E1 : 2 ^ Z.log2 m = M * 2 ^ e') by (unfold M; rewrite <- Z.pow_add_r by lia; f_equal; lia).
      rewrite Z.pow_succ_r in L2 by lia. rewrite E1 in *.
      assert (m / 2 ^ e' = c) by (rewrite Ec; apply Z.div_mul; lia). rewrite H0.
      assert (M <= c < 2 * M) by nia.
      rewrite mag_qr by lia. replace (M + (c - M)) with c by lia. replace (e' + 1 - 1) with e' by lia. lia. }
    split; auto. split; auto.
    destruct (Z_lt_le_dec (floor_bits f (Z.abs v)) (inf_bits f)); auto.
    pose proof (mag_le (inf_bits f) (floor_bits f (Z.abs v))). pose proof inf_pos. lia.
  Qed.
  Lemma repr_mag a : 0 <= a < inf_bits f -> repr f (mag f a).
  Proof. intros. exists a. split; auto. pose proof (mag_nonneg f Hf a). lia. Qed.
  Lemma repr_opp v : repr f v -> repr f (- v).
  Proof. intros [a Ha]. exists a. rewrite Z.abs_opp. auto. Qed.
  Lemma repr_num s v : repr f v -> repr f (num s v).
  Proof. destruct s; simpl; auto using repr_opp. Qed.
  Lemma pow_lt_inf e : 0 <= e < mb f + 2 * bias f -> 2 ^ e < mag f (inf_bits f).
  Proof. intros. rewrite mag_inf. apply Z.pow_lt_mono_r; lia. Qed.
  (* every integer up to 2^p *)
  Lemma repr_int k : Z.abs k <= 2 * M -> repr f (k * one f).
  Proof.
    intros Hk. pose proof one_pos. pose proof unit_pos. pose proof (mb_pos f Hf). pose proof mb_lt_bias.
    apply (repr_scaled (Z.abs k) (unit f)); try lia.
    - rewrite Z.abs_mul, (Z.abs_eq (one f)) by lia. reflexivity.
    - rewrite Z.abs_mul, (Z.abs_eq (one f)) by lia.
      assert (Z.abs k * one f <= 2 ^ (mb f + 1 + unit f)).
      { rewrite !Z.pow_add_r by lia. fold M (one f). change (2 ^ 1) with 2. nia. }
      assert (2 ^ (mb f + 1 + unit f) < mag f (inf_bits f)); [|lia].
      apply pow_lt_inf. unfold unit in *. lia.
  Qed.
  (* the shape of a number of the format *)
  Lemma mag_shape a : 0 <= a -> exists d e, 0 <= e /\ 0 <= d < 2 * M /\ mag f a = d * 2 ^ e /\ (e = 0 \/ M <= d).
  Proof.
    intros Ha. destruct (Z_lt_le_dec a M).
    - exists a, 0. rewrite (mag_small f a) by (fold M; lia). change (2 ^ 0) with 1. lia.
    - exists (M + a mod M), (a / M - 1). pose proof (Z.mod_pos_bound a M ltac:(lia)).
      assert (1 <= a / M) by (apply Z.div_le_lower_bound; lia).
      unfold mag. fold M. destruct (Z.ltb_spec a M); lia.
  Qed.
  (* the fractional part *)
  Lemma repr_frac a : 0 <= a < inf_bits f -> repr f (mag f a mod one f).
  Proof.
    intros Ha. destruct (mag_shape a ltac:(lia)) as (d & e & He & Hd & E & _).
    pose proof one_pos. pose proof (Z.mod_pos_bound (mag f a) (one f) ltac:(lia)) as MB.
    assert (MO : one f < mag f (inf_bits f)).
    { apply pow_lt_inf. unfold unit. pose proof mb_lt_bias. pose proof (mb_pos f Hf). lia. }
    destruct (Z_le_gt_dec (unit f) e).
    - assert (Z0 : mag f a mod one f = 0).
      { rewrite E. unfold one. replace e with ((e - unit f) + unit f) by lia.
        pose proof unit_pos. pose proof (mb_pos f Hf).
        rewrite Z.pow_add_r, Z.mul_assoc by lia. apply Z.mod_mul. fold (one f). lia. }
      rewrite Z0. exists 0. rewrite (mag_small f 0) by (fold M; lia). pose proof inf_pos. lia.
    - assert (E2 : mag f a mod one f = (d mod 2 ^ (unit f - e)) * 2 ^ e).
      { rewrite E. unfold one. replace (unit f) with ((unit f - e) + e) at 1 by lia.
        rewrite Z.pow_add_r by lia. apply Z.mul_mod_distr_r; apply Z.pow_nonzero; lia. }
      assert (0 < 2 ^ (unit f - e)) by (apply Z.pow_pos_nonneg; lia).
      pose proof (Z.mod_pos_bound d (2 ^ (unit f - e)) ltac:(lia)).
      pose proof (Z.mod_le d (2 ^ (unit f - e)) ltac:(lia) ltac:(lia)).
      apply (repr_scaled (d mod 2 ^ (unit f - e)) e); lia.
  Qed.
  (* a large number of the format is an integer *)
  Lemma mag_large a : 0 <= a -> M * one f <= mag f a -> mag f a mod one f = 0.
  Proof.
    intros Ha L. destruct (mag_shape a ltac:(lia)) as (d & e & He & Hd & E & De).
    pose proof one_pos.
    destruct (Z_le_gt_dec (unit f) e).
    - rewrite E. unfold one. replace e with ((e - unit f) + unit f) by lia.
      pose proof unit_pos. pose proof (mb_pos f Hf).
      rewrite Z.pow_add_r, Z.mul_assoc by lia. apply Z.mod_mul. fold (one f). lia.
    - exfalso. assert (2 * 2 ^ e <= one f).
      { replace (2 * 2 ^ e) with (2 ^ (1 + e)) by (rewrite Z.pow_add_r; lia). apply Z.pow_le_mono_r; lia. }
      assert (0 < 2 ^ e) by (apply Z.pow_pos_nonneg; lia). nia.
  Qed.

  (* ---------------------------------------------------------------- *)
  (* results *)
  Lemma with_sign_pattern s a : 0 <= a < 2 ^ (fw f - 1) -> pattern f (with_sign f s a).
  Proof. intros. unfold pattern, with_sign. rewrite (pow_fw f Hf). destruct s; lia. Qed.
  Lemma sign_with_sign s a : 0 <= a < 2 ^ (fw f - 1) -> sign_of f (with_sign f s a) = s.
  Proof. intros. destruct s; simpl; [apply sign_of_neg|apply sign_of_mag]; auto. Qed.
  Lemma mag_with_sign s a : 0 <= a < 2 ^ (fw f - 1) -> mag_bits f (with_sign f s a) = a.
  Proof. intros. destruct s; simpl; [apply mag_bits_neg|apply mag_bits_small]; auto. Qed.
  Lemma split_with_sign x : pattern f x -> x = with_sign f (sign_of f x) (mag_bits f x).
  Proof. intros H. rewrite (split_sign f Hf x H) at 1. unfold with_sign. destruct (sign_of f x); lia. Qed.
  Lemma decode_with_sign s a : 0 <= a < inf_bits f -> decode f (with_sign f s a) = DFin s (mag f a).
  Proof.
    intros H. pose proof (inf_lt f Hf). rewrite (decode_split f Hf), sign_with_sign, mag_with_sign by lia.
    unfold decode_mag. destruct (Z.ltb_spec a (inf_bits f)); auto; lia.
  Qed.
  Lemma decode_with_inf s : decode f (with_sign f s (inf_bits f)) = DInf s.
  Proof.
    pose proof (inf_lt f Hf). pose proof inf_pos. rewrite (decode_split f Hf), sign_with_sign, mag_with_sign by lia.
    unfold decode_mag. rewrite Z.eqb_refl. destruct (Z.ltb_spec (inf_bits f) (inf_bits f)); auto; lia.
  Qed.
  Lemma nan_range : inf_bits f < nan_bits f < 2 ^ (fw f - 1).
  Proof.
    unfold nan_bits. rewrite (inf_bits_val f Hf). pose proof (mb_pos f Hf).
    assert (M = 2 * 2 ^ (mb f - 1)).
    { unfold M. replace (mb f) with (1 + (mb f - 1)) at 1 by lia. rewrite Z.pow_add_r by lia. reflexivity. }
    fold M. lia.
  Qed.
  Lemma decode_nan : decode f (nan_bits f) = DNaN.
  Proof.
    pose proof nan_range. pose proof inf_pos. rewrite (decode_split f Hf).
    rewrite (sign_of_mag f) by lia. rewrite (mag_bits_small f) by lia. unfold decode_mag.
    destruct (Z.ltb_spec (nan_bits f) (inf_bits f)); [lia|].
    destruct (Z.eqb_spec (nan_bits f) (inf_bits f)); [lia|auto].
  Qed.
  Lemma pattern_nan : pattern f (nan_bits f).
  Proof. pose proof nan_range. pose proof inf_pos. unfold pattern. rewrite (pow_fw f Hf). lia. Qed.

  (* a finite pattern *)
  Lemma decode_fin x s m : pattern f x -> decode f x = DFin s m ->
    exists a, 0 <= a < inf_bits f /\ m = mag f a /\ x = with_sign f s a.
  Proof.
    intros Hx E. pose proof (mag_bits_bound f Hf x). rewrite (decode_split f Hf) in E. unfold decode_mag in E.
    exists (mag_bits f x).
    destruct (Z.ltb_spec (mag_bits f x) (inf_bits f)); [|destruct (_ =? _); discriminate].
    inversion E; subst. split; [lia|]. split; auto. apply split_with_sign; auto.
  Qed.
  Lemma decode_inf x s : pattern f x -> decode f x = DInf s -> x = with_sign f s (inf_bits f).
  Proof.
    intros Hx E. rewrite (decode_split f Hf) in E. unfold decode_mag in E.
    destruct (Z.ltb_spec (mag_bits f x) (inf_bits f)); [discriminate|].
    destruct (Z.eqb_spec (mag_bits f x) (inf_bits f)) as [E2|]; [|discriminate]. inversion E.
    rewrite <- E2. apply split_with_sign; auto.
  Qed.
  Lemma fval_repr x v : pattern f x -> fval f x = Some v -> repr f v.
  Proof.
    intros Hx E. unfold fval in E. destruct (decode f x) eqn:D; try discriminate. inversion E.
    destruct (decode_fin x s m Hx D) as (a & Ha & -> & _). apply repr_num, repr_mag; auto.
  Qed.

  (* rounding a number the format has is exact *)
  Lemma fround_exact md z v k w : 0 <= k -> v = w * 2 ^ k -> repr f w ->
    decode f (fround f md z v k) = DFin (if v =? 0 then z else w <? 0) (Z.abs w).
  Proof.
    intros Hk E (a & Ha & Em). assert (P : 0 < 2 ^ k) by (apply Z.pow_pos_nonneg; lia).
    unfold fround. destruct (Z.eqb_spec v 0) as [E0|N0].
    - rewrite decode_with_sign by (pose proof inf_pos; lia). rewrite (mag_small f 0) by (fold M; lia).
      assert (w = 0) by nia. subst w. auto.
    - assert (S : (v <? 0) = (w <? 0)) by (destruct (Z.ltb_spec v 0), (Z.ltb_spec w 0); auto; nia).
      rewrite S. assert (EA : Z.abs v = mag f a * 2 ^ k) by (rewrite E, Z.abs_mul, (Z.abs_eq (2 ^ k)) by lia; lia).
      rewrite EA, round_bits_exact by auto. rewrite decode_with_sign by auto. rewrite Em. auto.
  Qed.
  Lemma fround_pattern md z v k : 0 <= k -> pattern f (fround f md z v k).
  Proof.
    intros Hk. unfold fround. pose proof (inf_lt f Hf). pose proof inf_pos.
    destruct (v =? 0); apply with_sign_pattern; [lia|].
    pose proof (round_bits_range md (v <? 0) k (Z.abs v) Hk ltac:(lia)). lia.
  Qed.
  Lemma fadd_pattern md x y : pattern f (fadd f md x y).
  Proof.
    unfold fadd. pose proof (inf_lt f Hf). pose proof inf_pos. pose proof pattern_nan.
    destruct (decode f x); destruct (decode f y); auto;
      try (apply with_sign_pattern; lia); try (apply fround_pattern; lia).
    destruct (Bool.eqb s s0); auto. apply with_sign_pattern; lia.
  Qed.
  Lemma fneg_val x : pattern f x -> fneg f x = with_sign f (negb (sign_of f x)) (mag_bits f x).
  Proof.
    intros Hx. pose proof (mag_bits_bound f Hf x) as B. pose proof (fw_pos f Hf).
    unfold fneg. rewrite (signmask_val f Hf). rewrite (split_sign f Hf x Hx) at 1.
    set (a := mag_bits f x) in *.
    assert (E : Z.lxor (2 ^ (fw f - 1)) a = 2 ^ (fw f - 1) + a).
    { rewrite Z.add_nocarry_lxor; auto. apply Z.bits_inj'; intros j Hj.
      rewrite Z.land_spec, Z.bits_0, testbit_pow2 by lia.
      destruct (Z.eqb_spec (fw f - 1) j); auto; subst j. rewrite (testbit_above a (fw f - 1)) by lia. auto. }
    destruct (sign_of f x); simpl.
    - rewrite <- E. rewrite (Z.lxor_comm _ a), Z.lxor_assoc, Z.lxor_nilpotent, Z.lxor_0_r. auto.
    - rewrite Z.lxor_comm. auto.
  Qed.
  Lemma decode_neg x : pattern f x ->
    decode f (fneg f x) = match decode f x with DNaN => DNaN | DInf s => DInf (negb s) | DFin s m => DFin (negb s) m end.
  Proof.
    intros Hx. rewrite (fneg_val x Hx). pose proof (mag_bits_bound f Hf x).
    rewrite !(decode_split f Hf), sign_with_sign, mag_with_sign by auto. unfold decode_mag.
    destruct (_ <? _); auto. destruct (_ =? _); auto.
  Qed.
  Lemma fneg_pattern x : pattern f x -> pattern f (fneg f x).
  Proof. intros. rewrite fneg_val by auto. apply with_sign_pattern. apply (mag_bits_bound f Hf). Qed.
  Lemma fval_neg x v : pattern f x -> fval f x = Some v -> fval f (fneg f x) = Some (- v).
  Proof.
    intros Hx. unfold fval. rewrite decode_neg by auto. destruct (decode f x); try discriminate.
    intros E; inversion E. f_equal. destruct s; simpl; lia.
  Qed.
  Lemma num_abs w : num (w <? 0) (Z.abs w) = w.
  Proof. destruct (Z.ltb_spec w 0); simpl; lia. Qed.
  Lemma fadd_exact md x y v w : fval f x = Some v -> fval f y = Some w -> repr f (v + w) ->
    fval f (fadd f md x y) = Some (v + w).
  Proof.
    intros Hx Hy R. unfold fval in *. unfold fadd.
    destruct (decode f x) as [|?|s m]; try discriminate. destruct (decode f y) as [|?|s' m']; try discriminate.
    inversion Hx; inversion Hy; subst. cbv zeta.
    erewrite fround_exact; [|lia| |exact R]; [|change (2 ^ 0) with 1; lia].
    destruct (Z.eqb_spec (num s m + num s' m') 0) as [->|N].
    - destruct (if _ : bool then _ else _); auto.
    - rewrite num_abs. auto.
  Qed.
  Lemma fsub_exact md x y v w : pattern f y -> fval f x = Some v -> fval f y = Some w -> repr f (v - w) ->
    fval f (fsub f md x y) = Some (v - w).
  Proof. intros Hp Hx Hy R. unfold fsub. apply fadd_exact; auto using fval_neg. Qed.
  Lemma fsub_pattern md x y : pattern f (fsub f md x y).
  Proof. apply fadd_pattern. Qed.

  (* ---------------------------------------------------------------- *)
  (* adding 2^(p-1): the sum is rounded to an integer *)
  Lemma round_int_shift md s m k c : 0 <= k -> Z.Even c -> round_int md s (m + c * 2 ^ k) k = round_int md s m k + c.
  Proof.
    intros Hk [c' Ec]. unfold round_int. assert (P : 0 < 2 ^ k) by (apply Z.pow_pos_nonneg; lia).
    rewrite Z.div_add by lia. set (q := m / 2 ^ k).
    replace ((q + c) * 2 ^ k =? m + c * 2 ^ k) with (q * 2 ^ k =? m)
      by (destruct (Z.eqb_spec (q * 2 ^ k) m), (Z.eqb_spec ((q + c) * 2 ^ k) (m + c * 2 ^ k)); auto; lia).
    destruct (_ =? _); auto.
    replace (2 * (m + c * 2 ^ k) ?= (2 * (q + c) + 1) * 2 ^ k) with (2 * m ?= (2 * q + 1) * 2 ^ k)
      by (destruct (Z.compare_spec (2 * m) ((2 * q + 1) * 2 ^ k)), (Z.compare_spec (2 * (m + c * 2 ^ k)) ((2 * (q + c) + 1) * 2 ^ k)); auto; lia).
    replace (round_up_mag md s (2 * m ?= (2 * q + 1) * 2 ^ k) (q + c))
      with (round_up_mag md s (2 * m ?= (2 * q + 1) * 2 ^ k) q).
    - destruct (round_up_mag _ _ _ _); lia.
    - destruct md; simpl; auto. destruct (_ ?= _); auto. rewrite Z.odd_add, Ec, Z.odd_mul. simpl. rewrite xorb_false_r. auto.
  Qed.
  Lemma round_int_cases md s m k : 0 <= k -> 0 <= m ->
    round_int md s m k = m / 2 ^ k \/ (round_int md s m k = m / 2 ^ k + 1 /\ m / 2 ^ k * 2 ^ k < m).
  Proof.
    intros. unfold round_int. assert (P : 0 < 2 ^ k) by (apply Z.pow_pos_nonneg; lia).
    pose proof (Z.div_mod m (2 ^ k) ltac:(lia)). pose proof (Z.mod_pos_bound m (2 ^ k) P).
    destruct (Z.eqb_spec (m / 2 ^ k * 2 ^ k) m); auto. destruct (round_up_mag _ _ _ _); auto. right. lia.
  Qed.
  Lemma round_binade md s v : M * one f <= v < 2 * M * one f ->
    mag f (round_bits f md s v 0) = round_int md s v (unit f) * one f /\ round_bits f md s v 0 < inf_bits f.
  Proof.
    intros Hv. pose proof one_pos as HO. pose proof unit_pos as HU. pose proof (mb_pos f Hf) as Hmb. pose proof mb_lt_bias as HB.
    assert (EL : Z.log2 v = mb f + unit f).
    { apply Z.log2_unique; [lia|]. split.
      - rewrite Z.pow_add_r by lia. fold M (one f). lia.
      - rewrite Z.pow_succ_r, Z.pow_add_r by lia. fold M (one f). lia. }
    assert (HvM : M <= v) by nia.
    assert (D : M <= v / one f < 2 * M).
    { split; [apply Z.div_le_lower_bound; lia|apply Z.div_lt_upper_bound; lia]. }
    set (d := v / one f) in *.
    assert (EF : floor_bits f v = (unit f + 1) * M + (d - M)).
    { unfold floor_bits. fold M. destruct (Z.ltb_spec v M); [lia|]. rewrite EL.
      replace (mb f + unit f - mb f) with (unit f) by lia. fold (one f). fold d. auto. }
    assert (INF : (unit f + 3) * M <= inf_bits f).
    { unfold inf_bits. fold M. rewrite (pow_bias f Hf). unfold unit. apply Z.mul_le_mono_nonneg_r; lia. }
    unfold round_bits. change (2 ^ 0) with 1. rewrite Z.div_1_r, !Z.mul_1_r.
    rewrite EF. rewrite Z.min_l by (rewrite (max_val f); nia).
    set (a := (unit f + 1) * M + (d - M)).
    assert (Ma : mag f a = d * one f).
    { unfold a. rewrite mag_qr by lia. unfold one. f_equal; [lia|]. f_equal. lia. }
    assert (Ma1 : mag f (a + 1) = (d + 1) * one f).
    { unfold a. destruct (Z.eq_dec d (2 * M - 1)) as [Ed|Nd].
      - replace ((unit f + 1) * M + (d - M) + 1) with ((unit f + 2) * M + 0) by lia. rewrite mag_qr by lia.
        replace (unit f + 2 - 1) with (1 + unit f) by lia. rewrite Z.pow_add_r by lia. change (2 ^ 1) with 2. fold (one f). nia.
      - replace ((unit f + 1) * M + (d - M) + 1) with ((unit f + 1) * M + (d + 1 - M)) by lia. rewrite mag_qr by lia.
        unfold one. f_equal; [lia|]. f_equal. lia. }
    rewrite Ma, Ma1. unfold round_int. fold (one f). fold d.
    replace (d * one f + (d + 1) * one f) with ((2 * d + 1) * one f) by lia.
    assert (Od : Z.odd a = Z.odd d).
    { unfold a. replace ((unit f + 1) * M + (d - M)) with (d + M * unit f) by lia.
      assert (EM : M = 2 * 2 ^ (mb f - 1)).
      { unfold M. replace (mb f) with (1 + (mb f - 1)) at 1 by lia. rewrite Z.pow_add_r by lia. reflexivity. }
      rewrite Z.odd_add, EM, !Z.odd_mul. simpl. apply xorb_false_r. }
    assert (RU : round_up_mag md s (2 * v ?= (2 * d + 1) * one f) a = round_up_mag md s (2 * v ?= (2 * d + 1) * one f) d).
    { destruct md; simpl; auto. destruct (_ ?= _); auto. }
    rewrite RU.
    assert (La : a + 1 < inf_bits f) by (unfold a; nia).
    clear RU. clearbody a.
    destruct (Z.eqb_spec (d * one f) v); [split; [exact Ma|lia]|].
    destruct (round_up_mag _ _ _ _); split; try exact Ma; try exact Ma1; lia.
  Qed.
End Format.
