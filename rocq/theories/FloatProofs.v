(* Proofs about the bit-level comparison and classification functions. *)
From Coq Require Import ZArith List Bool Lia Psatz.
From Verif Require Import Prelude X86Lanes FloatSpec FloatBits FloatArith.
Import ListNotations.
Open Scope Z_scope.

Lemma ok32 : fmt_ok binary32. Proof. unfold fmt_ok, bias, eb; simpl; lia. Qed.
Lemma ok64 : fmt_ok binary64. Proof. unfold fmt_ok, bias, eb; simpl; lia. Qed.

Ltac zcmp :=
  match goal with
  | |- (_ ?= _) = Lt => rewrite Z.compare_lt_iff; lia
  | |- (_ ?= _) = Gt => rewrite Z.compare_gt_iff; lia
  | |- (_ ?= _) = Eq => rewrite Z.compare_eq_iff; lia
  end.

Section Format.
  Variable f : fmt.
  Hypothesis Hf : fmt_ok f.

  (* the bits without the sign *)
  Definition mag_bits (n : Z) : Z := n mod 2 ^ (fw f - 1).
  (* the number they stand for *)
  Local Notation mag := (FloatArith.mag f).

  Lemma mb_pos : 1 <= mb f. Proof. destruct Hf; unfold mb; lia. Qed.
  Lemma eb_pos : 2 <= eb f. Proof. destruct Hf as [_ [? _]]; auto. Qed.
  Lemma fw_split : fw f - 1 = mb f + eb f. Proof. unfold mb, eb; lia. Qed.
  Lemma pow_mb_pos : 2 <= 2 ^ mb f.
  Proof. pose proof mb_pos. replace 2 with (2 ^ 1) at 1 by reflexivity. apply Z.pow_le_mono_r; lia. Qed.
  Lemma pow_eb_pos : 4 <= 2 ^ eb f.
  Proof. pose proof eb_pos. replace 4 with (2 ^ 2) by reflexivity. apply Z.pow_le_mono_r; lia. Qed.
  Lemma pow_fw1 : 2 ^ (fw f - 1) = 2 ^ mb f * 2 ^ eb f.
  Proof. rewrite fw_split, Z.pow_add_r; auto. pose proof mb_pos; lia. pose proof eb_pos; lia. Qed.
  Lemma pow_fw : 2 ^ fw f = 2 * 2 ^ (fw f - 1).
  Proof.
    replace (fw f) with (1 + (fw f - 1)) at 1 by lia. rewrite Z.pow_add_r; try lia.
    rewrite fw_split; pose proof mb_pos; pose proof eb_pos; lia.
  Qed.
  Lemma fw_pos : 3 < fw f. Proof. pose proof mb_pos; pose proof eb_pos. pose proof fw_split; lia. Qed.
  Lemma pow_bias : 2 ^ eb f = 2 * (bias f + 1).
  Proof.
    unfold bias. replace (eb f) with (1 + (eb f - 1)) at 1 by lia.
    rewrite Z.pow_add_r by (pose proof eb_pos; lia). lia.
  Qed.
  Lemma bias_pos : 5 <= bias f. Proof. destruct Hf as [? [? ?]]; lia. Qed.

  Lemma inf_bits_val : inf_bits f = 2 ^ (fw f - 1) - 2 ^ mb f.
  Proof. unfold inf_bits. rewrite pow_fw1. lia. Qed.
  Lemma inf_lt : inf_bits f < 2 ^ (fw f - 1).
  Proof. rewrite inf_bits_val. pose proof pow_mb_pos; lia. Qed.
  Lemma max_val : finite_max_bits f = inf_bits f - 1.
  Proof. unfold finite_max_bits, inf_bits. lia. Qed.
  Lemma min_lt_inf : norm_min_bits f < inf_bits f.
  Proof. unfold norm_min_bits, inf_bits. pose proof pow_mb_pos; pose proof pow_eb_pos; nia. Qed.

  Lemma mag_bits_bound n : 0 <= mag_bits n < 2 ^ (fw f - 1).
  Proof. apply Z.mod_pos_bound. apply Z.pow_pos_nonneg; pose proof fw_pos; lia. Qed.

  Lemma split_sign n : pattern f n -> n = (if sign_of f n then 2 ^ (fw f - 1) else 0) + mag_bits n.
  Proof.
    intros [H0 H1]. unfold sign_of, mag_bits. rewrite pow_fw in H1.
    set (P := 2 ^ (fw f - 1)) in *.
    assert (HP : 0 < P) by (apply Z.pow_pos_nonneg; pose proof fw_pos; lia).
    pose proof (Z.div_mod n P ltac:(lia)) as E.
    assert (0 <= n / P < 2) by (split; [apply Z.div_pos; lia|apply Z.div_lt_upper_bound; lia]).
    assert (n / P = 0 \/ n / P = 1) as [D|D] by lia; rewrite D in *; simpl; lia.
  Qed.
  Lemma sign_of_mag a : 0 <= a < 2 ^ (fw f - 1) -> sign_of f a = false.
  Proof. intros. unfold sign_of. rewrite Z.div_small; auto. Qed.
  Lemma sign_of_neg a : 0 <= a < 2 ^ (fw f - 1) -> sign_of f (2 ^ (fw f - 1) + a) = true.
  Proof.
    intros. unfold sign_of. replace (2 ^ (fw f - 1) + a) with (1 * 2 ^ (fw f - 1) + a) by lia.
    rewrite Z.div_add_l by lia. rewrite Z.div_small; auto.
  Qed.
  Lemma mag_bits_small a : 0 <= a < 2 ^ (fw f - 1) -> mag_bits a = a.
  Proof. intros. unfold mag_bits. apply Z.mod_small; lia. Qed.
  Lemma mag_bits_neg a : 0 <= a < 2 ^ (fw f - 1) -> mag_bits (2 ^ (fw f - 1) + a) = a.
  Proof.
    intros. unfold mag_bits. replace (2 ^ (fw f - 1) + a) with (a + 1 * 2 ^ (fw f - 1)) by lia.
    rewrite Z.mod_add by lia. apply Z.mod_small; lia.
  Qed.

  Lemma exp_of_mag n : exp_of f n = mag_bits n / 2 ^ mb f.
  Proof.
    unfold exp_of, mag_bits. rewrite pow_fw1.
    pose proof pow_mb_pos; pose proof pow_eb_pos.
    rewrite Z.rem_mul_r by lia.
    rewrite (Z.mul_comm (2 ^ mb f) ((n / 2 ^ mb f) mod 2 ^ eb f)), Z.div_add by lia.
    rewrite (Z.div_small (n mod 2 ^ mb f)) by (apply Z.mod_pos_bound; lia). lia.
  Qed.
  Lemma frac_of_mag n : frac_of f n = mag_bits n mod 2 ^ mb f.
  Proof.
    unfold frac_of, mag_bits. rewrite pow_fw1.
    pose proof pow_mb_pos; pose proof pow_eb_pos.
    rewrite Z.rem_mul_r by lia.
    rewrite (Z.mul_comm (2 ^ mb f) ((n / 2 ^ mb f) mod 2 ^ eb f)), Z.mod_add by lia.
    rewrite Z.mod_mod; lia.
  Qed.

  Definition decode_mag (s : bool) (a : Z) : datum :=
    if a <? inf_bits f then DFin s (mag a) else if a =? inf_bits f then DInf s else DNaN.

  Lemma decode_split n : decode f n = decode_mag (sign_of f n) (mag_bits n).
  Proof.
    unfold decode, decode_mag. rewrite exp_of_mag, frac_of_mag.
    pose proof (mag_bits_bound n) as Hb. rewrite pow_fw1 in Hb.
    set (a := mag_bits n) in *. pose proof pow_mb_pos; pose proof pow_eb_pos.
    pose proof (Z.div_mod a (2 ^ mb f) ltac:(lia)) as E.
    pose proof (Z.mod_pos_bound a (2 ^ mb f) ltac:(lia)) as Hm.
    assert (Hq : 0 <= a / 2 ^ mb f < 2 ^ eb f)
      by (split; [apply Z.div_pos; lia|apply Z.div_lt_upper_bound; lia]).
    unfold inf_bits, FloatArith.mag.
    set (q := a / 2 ^ mb f) in *. set (r := a mod 2 ^ mb f) in *.
    destruct (Z.eqb_spec q (2 ^ eb f - 1)) as [Eq|Nq].
    - rewrite Eq in E.
      destruct (Z.ltb_spec a ((2 ^ eb f - 1) * 2 ^ mb f)); [nia|].
      destruct (Z.eqb_spec r 0); destruct (Z.eqb_spec a ((2 ^ eb f - 1) * 2 ^ mb f)); auto; nia.
    - destruct (Z.ltb_spec a ((2 ^ eb f - 1) * 2 ^ mb f)); [|nia].
      destruct (Z.eqb_spec q 0) as [E0|N0].
      + rewrite E0 in E. destruct (Z.ltb_spec a (2 ^ mb f)); [f_equal; lia|lia].
      + destruct (Z.ltb_spec a (2 ^ mb f)); [nia|auto].
  Qed.

  Lemma mag_bounds a : 2 ^ mb f <= a ->
    2 ^ (mb f + a / 2 ^ mb f - 1) <= mag a < 2 ^ (mb f + a / 2 ^ mb f).
  Proof.
    intros Ha. pose proof pow_mb_pos. pose proof mb_pos. unfold FloatArith.mag.
    destruct (Z.ltb_spec a (2 ^ mb f)); [lia|].
    pose proof (Z.mod_pos_bound a (2 ^ mb f) ltac:(lia)).
    assert (1 <= a / 2 ^ mb f) by (apply Z.div_le_lower_bound; lia).
    set (q := a / 2 ^ mb f) in *. set (r := a mod 2 ^ mb f) in *.
    assert (0 < 2 ^ (q - 1)) by (apply Z.pow_pos_nonneg; lia).
    replace (mb f + q - 1) with (mb f + (q - 1)) by lia.
    replace (mb f + q) with (1 + (mb f + (q - 1))) by lia.
    rewrite (Z.pow_add_r 2 1) by lia. rewrite !Z.pow_add_r by lia. nia.
  Qed.
  Lemma mag_small a : a < 2 ^ mb f -> mag a = a.
  Proof. intros. unfold FloatArith.mag. destruct (Z.ltb_spec a (2 ^ mb f)); lia. Qed.
  Lemma mag_mono a b : 0 <= a -> a < b -> mag a < mag b.
  Proof.
    intros H0 Hab. pose proof pow_mb_pos. pose proof mb_pos.
    destruct (Z_lt_le_dec b (2 ^ mb f)) as [Hb|Hb].
    { rewrite !mag_small by lia. auto. }
    assert (Hqb : 1 <= b / 2 ^ mb f) by (apply Z.div_le_lower_bound; lia).
    pose proof (mag_bounds b Hb) as Bb.
    destruct (Z_lt_le_dec a (2 ^ mb f)) as [Ha|Ha].
    { rewrite (mag_small a) by lia.
      assert (2 ^ mb f <= 2 ^ (mb f + b / 2 ^ mb f - 1)) by (apply Z.pow_le_mono_r; lia). lia. }
    pose proof (mag_bounds a Ha) as Ba.
    assert (Hle : a / 2 ^ mb f <= b / 2 ^ mb f) by (apply Z.div_le_mono; lia).
    destruct (Z.eq_dec (a / 2 ^ mb f) (b / 2 ^ mb f)) as [E|N].
    - unfold FloatArith.mag. destruct (Z.ltb_spec a (2 ^ mb f)); [lia|]. destruct (Z.ltb_spec b (2 ^ mb f)); [lia|].
      rewrite E. assert (0 < 2 ^ (b / 2 ^ mb f - 1)) by (apply Z.pow_pos_nonneg; lia).
      apply Z.mul_lt_mono_pos_r; auto.
      pose proof (Z.div_mod a (2 ^ mb f) ltac:(lia)). pose proof (Z.div_mod b (2 ^ mb f) ltac:(lia)).
      rewrite E in *. lia.
    - assert (2 ^ (mb f + a / 2 ^ mb f) <= 2 ^ (mb f + b / 2 ^ mb f - 1)) by (apply Z.pow_le_mono_r; lia).
      lia.
  Qed.
  Lemma mag_nonneg a : 0 <= a -> 0 <= mag a.
  Proof.
    intros. destruct (Z_lt_le_dec a (2 ^ mb f)); [rewrite mag_small; lia|].
    pose proof (mag_bounds a l). assert (0 < 2 ^ (mb f + a / 2 ^ mb f - 1)).
    { apply Z.pow_pos_nonneg; [lia|]. pose proof mb_pos. assert (0 <= a / 2 ^ mb f) by (apply Z.div_pos; lia). lia. }
    lia.
  Qed.
  Lemma mag_zero a : 0 <= a -> (mag a =? 0) = (a =? 0).
  Proof.
    intros. pose proof pow_mb_pos. assert (M0 : mag 0 = 0) by (apply mag_small; lia).
    destruct (Z.eqb_spec a 0) as [->|N]; [rewrite M0; auto|].
    pose proof (mag_mono 0 a ltac:(lia) ltac:(lia)). apply Z.eqb_neq. lia.
  Qed.
  Lemma mag_subnormal a : 0 <= a -> (mag a <? 2 ^ mb f) = (a <? 2 ^ mb f).
  Proof.
    intros. destruct (Z.ltb_spec a (2 ^ mb f)).
    - rewrite mag_small by lia. apply Z.ltb_lt; lia.
    - apply Z.ltb_ge. pose proof (mag_bounds a ltac:(lia)).
      assert (1 <= a / 2 ^ mb f) by (apply Z.div_le_lower_bound; pose proof pow_mb_pos; lia).
      assert (2 ^ mb f <= 2 ^ (mb f + a / 2 ^ mb f - 1)) by (apply Z.pow_le_mono_r; lia). lia.
  Qed.
  Lemma mag_compare a b : 0 <= a -> 0 <= b -> (mag a ?= mag b) = (a ?= b).
  Proof.
    intros. destruct (Z.compare_spec a b) as [->|L|L].
    - apply Z.compare_refl.
    - apply Z.compare_lt_iff. apply mag_mono; auto.
    - apply Z.compare_gt_iff. apply mag_mono; auto.
  Qed.

  (* ---------------------------------------------------------------- *)
  (* masks and two's complement *)
  Lemma sgn_mag n : pattern f n -> sgn (fw f) n = if sign_of f n then mag_bits n - 2 ^ (fw f - 1) else mag_bits n.
  Proof.
    intros H. pose proof (split_sign n H) as E. pose proof (mag_bits_bound n).
    unfold sgn. pose proof pow_fw.
    destruct (sign_of f n); destruct (Z.ltb_spec n (2 ^ (fw f - 1))); lia.
  Qed.
  Lemma sgn_small a : a < 2 ^ (fw f - 1) -> sgn (fw f) a = a.
  Proof. intros. unfold sgn. destruct (Z.ltb_spec a (2 ^ (fw f - 1))); lia. Qed.

  Lemma one_lt : 0 <= one_bits f < inf_bits f.
  Proof.
    unfold one_bits, inf_bits. rewrite pow_bias. pose proof bias_pos. pose proof pow_mb_pos. nia.
  Qed.
  Lemma signmask_val : signmask f = 2 ^ (fw f - 1).
  Proof.
    unfold signmask, minus_one_bits.
    pose proof one_lt. pose proof inf_lt. pose proof fw_pos.
    apply Z.bits_inj'. intros i Hi. rewrite Z.lxor_spec.
    assert (E : 2 ^ (fw f - 1) + one_bits f = Z.lor (2 ^ (fw f - 1)) (one_bits f)).
    { rewrite <- Z.lxor_lor; [|]; [rewrite Z.add_nocarry_lxor; auto|];
        apply Z.bits_inj'; intros j Hj; rewrite Z.land_spec, Z.bits_0, testbit_pow2 by lia;
        destruct (Z.eqb_spec (fw f - 1) j); auto; subst; rewrite (testbit_above (one_bits f) (fw f - 1)) by lia; auto. }
    rewrite E, Z.lor_spec, testbit_pow2 by lia.
    destruct (Z.eqb_spec (fw f - 1) i).
    - subst. rewrite (testbit_above (one_bits f) (fw f - 1)) by lia. auto.
    - simpl. apply xorb_nilpotent.
  Qed.
  Lemma absmask_val : absmask f = Z.ones (fw f - 1).
  Proof.
    unfold absmask, andnot, allbits. rewrite signmask_val.
    replace (2 ^ fw f - 1) with (Z.ones (fw f)) by (rewrite Z.ones_equiv; lia).
    pose proof fw_pos.
    apply Z.bits_inj'. intros i Hi.
    rewrite Z.land_spec, Z.lnot_spec, testbit_pow2, !testbit_ones by lia.
    destruct (Z.eqb_spec (fw f - 1) i); destruct (Z.ltb_spec i (fw f)); destruct (Z.ltb_spec i (fw f - 1)); auto; lia.
  Qed.
  Lemma fabs_val n : fabs_lane f n = mag_bits n.
  Proof.
    unfold fabs_lane, mag_bits. rewrite absmask_val, Z.land_comm, Z.land_ones; auto. pose proof fw_pos; lia.
  Qed.
  Lemma int_max_ones : int_max f = Z.ones (fw f - 1).
  Proof. unfold int_max. rewrite Z.ones_equiv. lia. Qed.

  Lemma key_val n : pattern f n -> key f n = num (sign_of f n) (mag_bits n).
  Proof.
    intros H. unfold key. rewrite (sgn_mag n H). pose proof (mag_bits_bound n) as B. pose proof fw_pos.
    pose proof pow_fw as W.
    destruct (sign_of f n); simpl.
    - destruct (Z.ltb_spec (mag_bits n - 2 ^ (fw f - 1)) 0); [|lia].
      rewrite int_max_ones, Z.land_ones by lia.
      assert (E : (mag_bits n - 2 ^ (fw f - 1)) mod 2 ^ (fw f - 1) = mag_bits n).
      { replace (mag_bits n - 2 ^ (fw f - 1)) with (mag_bits n + (-1) * 2 ^ (fw f - 1)) by lia.
        rewrite Z.mod_add by lia. apply Z.mod_small; lia. }
      rewrite E. unfold uns, sgn.
      destruct (Z.eq_dec (mag_bits n) 0) as [->|N].
      + rewrite Z.opp_0, Z.mod_0_l by lia. destruct (Z.ltb_spec 0 (2 ^ (fw f - 1))); lia.
      + assert (M : (- mag_bits n) mod 2 ^ fw f = 2 ^ fw f - mag_bits n).
        { replace (- mag_bits n) with ((2 ^ fw f - mag_bits n) + (-1) * 2 ^ fw f) by lia.
          rewrite Z.mod_add by lia. apply Z.mod_small. lia. }
        rewrite M. destruct (Z.ltb_spec (2 ^ fw f - mag_bits n) (2 ^ (fw f - 1))); lia.
    - destruct (Z.ltb_spec (mag_bits n) 0); lia.
  Qed.

  (* ---------------------------------------------------------------- *)
  (* comparisons *)
  Lemma unord_iff n : (match decode f n with DNaN => true | _ => false end) = (inf_bits f <? mag_bits n).
  Proof.
    rewrite decode_split. unfold decode_mag.
    destruct (Z.ltb_spec (mag_bits n) (inf_bits f)); [destruct (Z.ltb_spec (inf_bits f) (mag_bits n)); auto; lia|].
    destruct (Z.eqb_spec (mag_bits n) (inf_bits f)); destruct (Z.ltb_spec (inf_bits f) (mag_bits n)); auto; lia.
  Qed.

  Lemma num_compare s a s' b : 0 <= a -> 0 <= b -> (num s (mag a) ?= num s' (mag b)) = (num s a ?= num s' b).
  Proof.
    intros Ha Hb. pose proof (mag_nonneg a Ha). pose proof (mag_nonneg b Hb).
    pose proof (mag_zero a Ha). pose proof (mag_zero b Hb).
    assert (a = 0 -> mag a = 0) by (intros ->; apply Z.eqb_eq; rewrite mag_zero; auto; lia).
    assert (b = 0 -> mag b = 0) by (intros ->; apply Z.eqb_eq; rewrite mag_zero; auto; lia).
    assert (a <> 0 -> mag a <> 0) by (intros N E; apply Z.eqb_eq in E; rewrite mag_zero in E by lia; apply Z.eqb_eq in E; auto).
    assert (b <> 0 -> mag b <> 0) by (intros N E; apply Z.eqb_eq in E; rewrite mag_zero in E by lia; apply Z.eqb_eq in E; auto).
    destruct s, s'; simpl.
    - rewrite !Z.compare_opp. apply mag_compare; auto.
    - destruct (Z.compare_spec (- a) b), (Z.compare_spec (- mag a) (mag b)); auto; try lia;
        destruct (Z.eq_dec a 0), (Z.eq_dec b 0); lia.
    - destruct (Z.compare_spec a (- b)), (Z.compare_spec (mag a) (- mag b)); auto; try lia;
        destruct (Z.eq_dec a 0), (Z.eq_dec b 0); lia.
    - apply mag_compare; auto.
  Qed.

  (* comparing numbers is comparing the keys *)
  Lemma compare_keys x y : pattern f x -> pattern f y ->
    compare_lanes f x y =
      if (inf_bits f <? mag_bits x) || (inf_bits f <? mag_bits y) then None
      else Some (key f x ?= key f y).
  Proof.
    intros Hx Hy. rewrite !key_val by auto. unfold compare_lanes. rewrite !decode_split.
    pose proof (mag_bits_bound x) as Bx. pose proof (mag_bits_bound y) as By.
    set (sx := sign_of f x). set (sy := sign_of f y). set (a := mag_bits x) in *. set (b := mag_bits y) in *.
    pose proof min_lt_inf as MI. unfold norm_min_bits in MI. pose proof pow_mb_pos.
    unfold decode_mag.
    destruct (Z.ltb_spec a (inf_bits f)) as [La|La]; destruct (Z.ltb_spec b (inf_bits f)) as [Lb|Lb];
      destruct (Z.eqb_spec a (inf_bits f)); destruct (Z.eqb_spec b (inf_bits f)); try lia;
      destruct (Z.ltb_spec (inf_bits f) a); destruct (Z.ltb_spec (inf_bits f) b); try lia; simpl; auto.
    - rewrite num_compare by lia. auto.
    - f_equal. symmetry. destruct sy, sx; cbn [num eqb]; zcmp.
    - f_equal. symmetry. destruct sy, sx; cbn [num eqb]; zcmp.
    - f_equal. symmetry. destruct sy, sx; cbn [num eqb]; zcmp.
  Qed.

  Lemma self_compare x : pattern f x ->
    compare_lanes f x x = if inf_bits f <? mag_bits x then None else Some Eq.
  Proof.
    intros. rewrite compare_keys by auto. rewrite orb_diag, Z.compare_refl. auto.
  Qed.

  Lemma builtin_isnan_ok t x : pattern f x -> builtin_isnan t f x = (inf_bits f <? mag_bits x).
  Proof.
    intros H. unfold builtin_isnan. destruct (t_snan t).
    - rewrite fabs_val. rewrite !sgn_small by (pose proof inf_lt; pose proof (mag_bits_bound x); lia). auto.
    - unfold feq, cmp. rewrite self_compare by auto. destruct (inf_bits f <? mag_bits x); auto.
  Qed.

  Lemma unord_compare x y : pattern f x -> pattern f y ->
    cmp CMP_UNORD_Q f x y = (inf_bits f <? mag_bits x) || (inf_bits f <? mag_bits y).
  Proof.
    intros. unfold cmp. rewrite compare_keys by auto.
    destruct ((inf_bits f <? mag_bits x) || (inf_bits f <? mag_bits y)); auto.
    destruct (key f x ?= key f y); auto.
  Qed.
  Lemma ord_compare x y : cmp CMP_ORD_Q f x y = negb (cmp CMP_UNORD_Q f x y).
  Proof. unfold cmp. destruct (compare_lanes f x y) as [[]|]; auto. Qed.

  Lemma isunordered_ok t x y : pattern f x -> pattern f y ->
    isunordered_lane t f x y = match ieee_compare (decode f x) (decode f y) with None => true | _ => false end.
  Proof.
    intros Hx Hy. change (ieee_compare (decode f x) (decode f y)) with (compare_lanes f x y).
    unfold isunordered_lane. destruct (t_x86 t).
    - unfold x86_isunordered, cmp. destruct (compare_lanes f x y) as [[]|]; auto.
    - unfold builtin_isunordered. rewrite !builtin_isnan_ok by auto. rewrite compare_keys by auto.
      destruct ((inf_bits f <? mag_bits x) || (inf_bits f <? mag_bits y)); auto.
  Qed.

  (* the value a relation should have for an outcome of the comparison *)
  Definition rel_of (r : ordrel) (c : option comparison) : bool :=
    match r, c with
    | RGreater, Some Gt => true
    | RGreaterEqual, Some Gt | RGreaterEqual, Some Eq => true
    | RLess, Some Lt => true
    | RLessEqual, Some Lt | RLessEqual, Some Eq => true
    | _, _ => false
    end.
  Lemma icmp_rel r a b : icmp r a b = rel_of r (Some (a ?= b)).
  Proof.
    destruct (Z.compare_spec a b); subst; destruct r; simpl;
      try apply Z.ltb_lt; try apply Z.leb_le; try apply Z.ltb_ge; try apply Z.leb_gt; lia.
  Qed.
  Lemma cmp_rel r x y : cmp (pred_of r) f x y = rel_of r (compare_lanes f x y).
  Proof. unfold cmp. destruct (compare_lanes f x y) as [[]|]; destruct r; auto. Qed.
  Lemma int_rel r x y : pattern f x -> pattern f y ->
    negb (cmp CMP_UNORD_Q f x y) && icmp r (key f x) (key f y) = rel_of r (compare_lanes f x y).
  Proof.
    intros. rewrite unord_compare, compare_keys, icmp_rel by auto.
    destruct ((inf_bits f <? mag_bits x) || (inf_bits f <? mag_bits y)); simpl; auto. destruct r; auto.
  Qed.
  Lemma builtin_ord_ok t r x y : pattern f x -> pattern f y ->
    builtin_ord t r f x y = rel_of r (compare_lanes f x y).
  Proof.
    intros. unfold builtin_ord. rewrite isunordered_ok by auto.
    change (ieee_compare (decode f x) (decode f y)) with (compare_lanes f x y).
    rewrite <- int_rel by auto. unfold cmp. destruct (compare_lanes f x y) as [[]|]; auto.
  Qed.
  Lemma compare_sym x y : pattern f x -> pattern f y ->
    compare_lanes f y x = option_map CompOpp (compare_lanes f x y).
  Proof.
    intros. rewrite !compare_keys by auto. rewrite (orb_comm (inf_bits f <? mag_bits y)).
    destruct ((inf_bits f <? mag_bits x) || (inf_bits f <? mag_bits y)); simpl; auto.
    rewrite Z.compare_antisym. auto.
  Qed.
  Lemma ord_lane_ok t r x y v : pattern f x -> pattern f y ->
    ord_lane t r f x y = Some v -> v = rel_of r (compare_lanes f x y).
  Proof.
    intros Hx Hy. unfold ord_lane, x86_ord. destruct (t_x86 t).
    - destruct (t_a512 t).
      { destruct ((t_bytes t =? 16) || (t_bytes t =? 32) || (t_bytes t =? 64)); [|discriminate].
        intros E; injection E as <-. apply cmp_rel. }
      destruct (t_avx t).
      { destruct ((t_bytes t =? 16) || (t_bytes t =? 32)); [|discriminate].
        intros E; injection E as <-. apply cmp_rel. }
      destruct ((t_bytes t =? 16) && (fw f =? 32)).
      { intros E; injection E as <-. rewrite ord_compare. apply int_rel; auto. }
      destruct ((t_bytes t =? 16) && (fw f =? 64)).
      { intros E; injection E as <-. unfold ucomigt, ucomige, cmp.
        destruct r; rewrite ?(compare_sym x y Hx Hy); destruct (compare_lanes f x y) as [[]|]; auto. }
      intros E; injection E as <-. apply builtin_ord_ok; auto.
    - intros E; injection E as <-. apply builtin_ord_ok; auto.
  Qed.
  Lemma islessgreater_ok t x y v : pattern f x -> pattern f y ->
    islessgreater_lane t f x y = Some v ->
    v = match compare_lanes f x y with Some Lt | Some Gt => true | _ => false end.
  Proof.
    intros Hx Hy. unfold islessgreater_lane, x86_islessgreater, builtin_islessgreater.
    destruct (t_x86 t).
    - destruct (t_a512 t).
      { destruct ((t_bytes t =? 16) || (t_bytes t =? 32) || (t_bytes t =? 64)); [|discriminate].
        intros E; injection E as <-. unfold cmp. destruct (compare_lanes f x y) as [[]|]; auto. }
      destruct (t_avx t).
      { destruct ((t_bytes t =? 16) || (t_bytes t =? 32)); [|discriminate].
        intros E; injection E as <-. unfold cmp. destruct (compare_lanes f x y) as [[]|]; auto. }
      destruct (t_bytes t =? 16); [|discriminate].
      intros E; injection E as <-. unfold cmp. destruct (compare_lanes f x y) as [[]|]; auto.
    - intros E; injection E as <-. rewrite isunordered_ok by auto.
      change (ieee_compare (decode f x) (decode f y)) with (compare_lanes f x y).
      unfold fne, cmp. destruct (compare_lanes f x y) as [[]|]; auto.
  Qed.

  (* ---------------------------------------------------------------- *)
  (* classification *)
  Lemma class_mag n :
    class_of f (decode f n) =
      if mag_bits n =? 0 then CZero
      else if mag_bits n <? norm_min_bits f then CSubnormal
      else if mag_bits n <? inf_bits f then CNormal
      else if mag_bits n =? inf_bits f then CInfinite else CNan.
  Proof.
    rewrite decode_split. pose proof (mag_bits_bound n). set (a := mag_bits n) in *.
    pose proof min_lt_inf as MI. unfold norm_min_bits in *. pose proof pow_mb_pos. unfold decode_mag.
    destruct (Z.ltb_spec a (inf_bits f)).
    - simpl. rewrite mag_zero, mag_subnormal by lia. auto.
    - destruct (Z.eqb_spec a 0); [lia|]. destruct (Z.ltb_spec a (2 ^ mb f)); [lia|].
      destruct (Z.eqb_spec a (inf_bits f)); auto.
  Qed.
  Lemma sign_datum n : match decode f n with DNaN => True | DInf s | DFin s _ => s = sign_of f n end.
  Proof.
    rewrite decode_split. unfold decode_mag.
    destruct (mag_bits n <? inf_bits f); [auto|]. destruct (mag_bits n =? inf_bits f); auto.
  Qed.

  Definition is_class (c c' : fclass) : bool :=
    match c, c' with
    | CNan, CNan | CInfinite, CInfinite | CZero, CZero | CSubnormal, CSubnormal | CNormal, CNormal => true
    | _, _ => false
    end.

  Ltac zcases :=
    repeat match goal with
    | |- context [Z.ltb ?a ?b] => destruct (Z.ltb_spec a b)
    | |- context [Z.leb ?a ?b] => destruct (Z.leb_spec a b)
    | |- context [Z.eqb ?a ?b] => destruct (Z.eqb_spec a b)
    end; simpl; auto; try lia.

  Lemma isnan_ok t x : pattern f x -> isnan_lane t f x = is_class CNan (class_of f (decode f x)).
  Proof.
    intros H. rewrite class_mag. unfold isnan_lane, x86_isunordered.
    assert (E : (if t_x86 t then cmp CMP_UNORD_Q f x x else builtin_isnan t f x) = (inf_bits f <? mag_bits x)).
    { destruct (t_x86 t). rewrite unord_compare by auto. apply orb_diag. apply builtin_isnan_ok; auto. }
    rewrite E. pose proof (mag_bits_bound x). pose proof min_lt_inf. pose proof pow_mb_pos. unfold norm_min_bits in *.
    zcases.
  Qed.

  Lemma fpclass_ok imm x :
    (forall i, Z.testbit imm i = true -> i <> 6) ->
    Z.testbit imm 0 = Z.testbit imm 7 -> Z.testbit imm 1 = Z.testbit imm 2 -> Z.testbit imm 3 = Z.testbit imm 4 ->
    fpclass imm f x = match class_of f (decode f x) with
                      | CNan => Z.testbit imm 0 | CInfinite => Z.testbit imm 3 | CZero => Z.testbit imm 1
                      | CSubnormal => Z.testbit imm 5 | CNormal => false end.
  Proof.
    intros H6 E0 E1 E3. unfold fpclass.
    assert (B6 : Z.testbit imm 6 = false) by (destruct (Z.testbit imm 6) eqn:E; auto; specialize (H6 6 E); lia).
    rewrite B6. destruct (decode f x) as [|s|s m]; simpl.
    - destruct (Z.testbit x (mb f - 1)); auto.
    - destruct s; auto.
    - destruct (m =? 0); [destruct s; auto|]. rewrite orb_false_r.
      destruct (m <? 2 ^ mb f); [apply andb_true_r|apply andb_false_r].
  Qed.
  Lemma only6 imm : 0 <= imm < 256 -> Z.testbit imm 6 = false -> forall i, Z.testbit imm i = true -> i <> 6.
  Proof. intros _ H i Hi ->. congruence. Qed.

  Lemma isfinite_ok t x : pattern f x ->
    isfinite_lane t f x = match class_of f (decode f x) with CNan | CInfinite => false | _ => true end.
  Proof.
    intros H. pose proof (mag_bits_bound x) as B. pose proof min_lt_inf as MI. pose proof pow_mb_pos as PM. pose proof inf_lt.
    assert (Bi : builtin_isfinite f x = match class_of f (decode f x) with CNan | CInfinite => false | _ => true end).
    { unfold builtin_isfinite. rewrite fabs_val, max_val, !sgn_small by lia. rewrite class_mag.
      unfold norm_min_bits in *. zcases. }
    unfold isfinite_lane. destruct (t_x86 t && t_a512 t); [|auto].
    destruct (t_dq t).
    - rewrite fpclass_ok by (reflexivity || (apply only6; [lia|reflexivity])).
      destruct (class_of f (decode f x)); auto.
    - rewrite <- Bi. unfold builtin_isfinite. rewrite fabs_val, max_val, (sgn_small (inf_bits f - 1)), (sgn_small (mag_bits x)), (sgn_small (inf_bits f)) by lia.
      assert (L : Z.land x (inf_bits f) = mag_bits x - mag_bits x mod 2 ^ mb f).
      { apply Z.bits_inj'. intros i Hi.
        assert (Ei : inf_bits f = Z.shiftl (Z.ones (eb f)) (mb f)).
        { unfold inf_bits. rewrite Z.shiftl_mul_pow2 by (pose proof mb_pos; lia). rewrite Z.ones_equiv. lia. }
        assert (Em : mag_bits x - mag_bits x mod 2 ^ mb f = Z.shiftl (Z.shiftr (mag_bits x) (mb f)) (mb f)).
        { rewrite Z.shiftl_mul_pow2, Z.shiftr_div_pow2 by (pose proof mb_pos; lia).
          pose proof (Z.div_mod (mag_bits x) (2 ^ mb f) ltac:(lia)). lia. }
        rewrite Em, Ei, Z.land_spec, !Z.shiftl_spec by lia.
        destruct (Z.ltb_spec i (mb f)).
        - rewrite !(Z.testbit_neg_r _ (i - mb f)) by lia. apply andb_false_r.
        - rewrite Z.shiftr_spec by lia. replace (i - mb f + mb f) with i by lia.
          rewrite testbit_ones by (pose proof eb_pos; lia).
          unfold mag_bits. rewrite testbit_mod_pow2 by (pose proof fw_pos; lia).
          rewrite fw_split, andb_comm. f_equal.
          destruct (Z.ltb_spec (i - mb f) (eb f)), (Z.ltb_spec i (mb f + eb f)); auto; lia. }
      rewrite L. pose proof (Z.mod_pos_bound (mag_bits x) (2 ^ mb f) ltac:(lia)) as Bm.
      rewrite sgn_small by lia.
      pose proof (Z.div_mod (mag_bits x) (2 ^ mb f) ltac:(lia)) as D.
      unfold inf_bits. replace (mag_bits x - mag_bits x mod 2 ^ mb f) with (mag_bits x / 2 ^ mb f * 2 ^ mb f) by lia.
      set (q := mag_bits x / 2 ^ mb f) in *. set (r := mag_bits x mod 2 ^ mb f) in *. set (m := mag_bits x) in *.
      set (P := 2 ^ mb f) in *. set (E := 2 ^ eb f - 1) in *. clear L Bi B MI.
      destruct (Z.ltb_spec (q * P) (E * P)) as [C|C]; destruct (Z.leb_spec m (E * P - 1)); auto.
      + assert (q < E) by (apply Z.mul_lt_mono_pos_r in C; lia). assert ((q + 1) * P <= E * P) by (apply Z.mul_le_mono_nonneg_r; lia). lia.
      + lia.
  Qed.

  Lemma pattern_mag x : pattern f (mag_bits x).
  Proof. pose proof (mag_bits_bound x). pose proof pow_fw. unfold pattern. lia. Qed.
  Lemma pattern_inf : pattern f (inf_bits f).
  Proof. pose proof inf_lt. pose proof pow_fw. pose proof one_lt. unfold pattern. lia. Qed.

  Lemma isinf_ok t x : pattern f x -> isinf_lane t f x = is_class CInfinite (class_of f (decode f x)).
  Proof.
    intros H. pose proof (mag_bits_bound x) as B. pose proof min_lt_inf as MI. pose proof pow_mb_pos as PM. pose proof inf_lt.
    assert (Bi : builtin_isinf f x = is_class CInfinite (class_of f (decode f x))).
    { unfold builtin_isinf, feq, cmp. rewrite fabs_val, class_mag.
      rewrite compare_keys by (apply pattern_mag || apply pattern_inf).
      rewrite !key_val by (apply pattern_mag || apply pattern_inf).
      pose proof one_lt as OL. rewrite (sign_of_mag (mag_bits x)), (sign_of_mag (inf_bits f)), (mag_bits_small (mag_bits x)), (mag_bits_small (inf_bits f)) by lia.
      rewrite Z.ltb_irrefl, orb_false_r. simpl num.
      unfold norm_min_bits in *.
      destruct (Z.compare_spec (mag_bits x) (inf_bits f)); zcases. }
    assert (Fc : fpclass 0x18 f x = is_class CInfinite (class_of f (decode f x))).
    { rewrite fpclass_ok by (reflexivity || (apply only6; [lia|reflexivity])). destruct (class_of f (decode f x)); auto. }
    unfold isinf_lane. destruct (t_x86 t); [|auto]. destruct (t_a512 t && t_dq t); [auto|]. destruct (t_dq t && t_vl t); auto.
  Qed.

  Lemma isnormal_ok t x v : pattern f x -> isnormal_lane t f x = Some v ->
    v = is_class CNormal (class_of f (decode f x)).
  Proof.
    intros H. pose proof (mag_bits_bound x) as B. pose proof min_lt_inf as MI. pose proof pow_mb_pos as PM. pose proof inf_lt.
    assert (Bi : builtin_isnormal f x = is_class CNormal (class_of f (decode f x))).
    { unfold builtin_isnormal. rewrite fabs_val, max_val, !sgn_small by lia. rewrite class_mag. unfold norm_min_bits in *.
      zcases. }
    assert (Fc : negb (fpclass 0xbf f x) = is_class CNormal (class_of f (decode f x))).
    { rewrite fpclass_ok by (reflexivity || (apply only6; [lia|reflexivity])). destruct (class_of f (decode f x)); auto. }
    unfold isnormal_lane. destruct (t_x86 t); [|intros E; injection E as <-; auto].
    destruct (t_a512 t && t_dq t); [intros E; injection E as <-; rewrite <- Fc; auto|].
    destruct (t_dq t).
    { destruct ((t_vl t && ((t_bytes t =? 16) || (t_bytes t =? 32))) || (t_bytes t =? 64)); [|discriminate].
      intros E; injection E as <-; auto. }
    destruct (t_a512 t); [|intros E; injection E as <-; auto].
    intros E; injection E as <-. rewrite <- Bi. unfold builtin_isnormal.
    rewrite fabs_val, max_val, !sgn_small by lia. f_equal. zcases.
  Qed.

  Lemma msb_sign x : pattern f x -> msb (fw f) x = sign_of f x.
  Proof.
    intros. unfold msb, sign_of. pose proof fw_pos.
    rewrite <- Z.shiftr_div_pow2 by lia. rewrite <- Z.bit0_odd, Z.shiftr_spec by lia. f_equal; lia.
  Qed.
  Lemma signbit_ok t x : pattern f x -> signbit_lane t f x = sign_of f x.
  Proof.
    intros H. unfold signbit_lane, builtin_signbit. rewrite (msb_sign x H).
    assert (E : (sgn (fw f) x <? 0) = sign_of f x).
    { rewrite sgn_mag by auto. pose proof (mag_bits_bound x).
      destruct (sign_of f x); [apply Z.ltb_lt; lia|apply Z.ltb_ge; lia]. }
    assert (Z0 : sgn (fw f) 0 = 0) by (apply sgn_small; apply Z.pow_pos_nonneg; pose proof fw_pos; lia).
    rewrite Z0, E. destruct (t_x86 t && t_a512 t); auto. destruct (t_dq t); auto. destruct (t_bytes t =? 64); auto.
  Qed.

  Lemma fpclassify_tmp_ok x : pattern f x -> fpclassify_tmp f x = fp_macro (class_of f (decode f x)).
  Proof.
    intros H. pose proof (mag_bits_bound x) as B. pose proof min_lt_inf as MI. pose proof pow_mb_pos as PM. pose proof inf_lt.
    unfold fpclassify_tmp. rewrite fabs_val, !sgn_small by lia. rewrite class_mag. unfold norm_min_bits in *.
    zcases.
  Qed.
End Format.
