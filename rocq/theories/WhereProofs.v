(* Proofs about Where.v. *)
From Coq Require Import List ZArith Bool Lia Arith.
From Verif Require Import Prelude Fixed MaskSpec BitMask KMask KMaskSpec KMaskProofs X86Lanes X86Div ScalarSpec Scalar FloatSpec FloatBits FloatArith Padding X86Mask X86MaskSpec X86MaskProofs Where WhereSpec.
Import ListNotations.
Local Open Scope Z_scope.

Lemma ones_pos s : (1 <= sz s)%nat -> 0 < ones s /\ ones s <> 0.
Proof.
  intros H. unfold ones, lw. pose proof (Z.pow_gt_1 2 (8 * Z.of_nat (sz s))) as P. lia.
Qed.

(* one lane of every kind of blend *)
Lemma bitwise_zero a b : lane_bitwise 0 a b = a.
Proof. unfold lane_bitwise. rewrite Z.land_0_l, Z.lor_0_r. change (Z.lnot 0) with (-1). apply Z.land_m1_l. Qed.
Lemma land_lnot_ones w a : 0 <= w -> 0 <= a < 2 ^ w -> Z.land (Z.lnot (2 ^ w - 1)) a = 0.
Proof.
  intros Hw Ha. rewrite Z.land_comm. rewrite <- Z.ldiff_land.
  replace (2 ^ w - 1) with (Z.ones w) by (rewrite Z.ones_equiv; lia).
  rewrite Z.ldiff_ones_r by lia. rewrite Z.shiftr_div_pow2 by lia. rewrite Z.div_small by lia. apply Z.shiftl_0_l.
Qed.
Lemma land_ones_l w a : 0 <= w -> 0 <= a < 2 ^ w -> Z.land (2 ^ w - 1) a = a.
Proof.
  intros Hw Ha. replace (2 ^ w - 1) with (Z.ones w) by (rewrite Z.ones_equiv; lia).
  rewrite Z.land_comm, Z.land_ones by lia. apply Z.mod_small. auto.
Qed.
Lemma bitwise_ones w a b : 0 <= w -> 0 <= a < 2 ^ w -> 0 <= b < 2 ^ w -> lane_bitwise (2 ^ w - 1) a b = b.
Proof. intros. unfold lane_bitwise. rewrite land_lnot_ones, land_ones_l by auto. apply Z.lor_0_l. Qed.

Lemma pow_split g c : 0 < g -> 2 ^ (g * Z.of_nat (S c)) = 2 ^ g * 2 ^ (g * Z.of_nat c).
Proof. intros. rewrite <- Z.pow_add_r by lia. f_equal. lia. Qed.
Lemma by_signs_zero c g : forall a b, 0 < g -> by_signs c g 0 a b = a mod 2 ^ (g * Z.of_nat c).
Proof.
  induction c as [|c IH]; intros a b Hg; cbn [by_signs].
  - rewrite Z.mul_0_r. cbn. symmetry. apply Z.mod_1_r.
  - rewrite Z.testbit_0_l, Z.div_0_l by (apply Z.pow_nonzero; lia).
    rewrite IH by auto. rewrite pow_split by auto. symmetry. apply Z.rem_mul_r; [apply Z.pow_nonzero; lia|apply Z.pow_pos_nonneg; lia].
Qed.
Lemma by_signs_ones c g : forall a b, 0 < g -> by_signs c g (2 ^ (g * Z.of_nat c) - 1) a b = b mod 2 ^ (g * Z.of_nat c).
Proof.
  induction c as [|c IH]; intros a b Hg; cbn [by_signs].
  - rewrite Z.mul_0_r. cbn. symmetry. apply Z.mod_1_r.
  - assert (P : 0 < 2 ^ g) by (apply Z.pow_pos_nonneg; lia).
    assert (Q : 0 < 2 ^ (g * Z.of_nat c)) by (apply Z.pow_pos_nonneg; lia).
    assert (B : Z.testbit (2 ^ (g * Z.of_nat (S c)) - 1) (g - 1) = true).
    { replace (2 ^ (g * Z.of_nat (S c)) - 1) with (Z.ones (g * Z.of_nat (S c))) by (rewrite Z.ones_equiv; lia).
      apply Z.ones_spec_low. nia. }
    rewrite B.
    assert (D : (2 ^ (g * Z.of_nat (S c)) - 1) / 2 ^ g = 2 ^ (g * Z.of_nat c) - 1).
    { rewrite pow_split by auto. symmetry. apply Z.div_unique with (r := 2 ^ g - 1); [lia|]. nia. }
    rewrite D, IH by auto. rewrite pow_split by auto. symmetry. apply Z.rem_mul_r; lia.
Qed.

Lemma signs_lw y s g : y = Signs g -> style_ok y s -> 0 < g /\ g * Z.of_nat (Z.to_nat (lw s / g)) = lw s.
Proof.
  intros -> [H|[[H Hs]|[H Hs]]]; subst; cbn beta; unfold lw.
  - split; [lia|]. replace (8 * Z.of_nat (sz s) / 8) with (Z.of_nat (sz s)) by (rewrite Z.mul_comm, Z.div_mul; lia). lia.
  - destruct Hs as [-> | ->]; split; reflexivity || lia.
  - rewrite Hs. split; [lia|]. reflexivity.
Qed.

Lemma bits_blend_nth w a b i : length a = length b -> (i < length a)%nat ->
  nth i (bits_blend w a b) 0 = if Z.testbit w (Z.of_nat i) then nth i b 0 else nth i a 0.
Proof.
  intros Hl Hi. unfold bits_blend.
  rewrite (map3_nth _ _ _ _ i 0%nat 0 0) by (rewrite ?seq_length; lia).
  rewrite seq_nth by auto. cbn [Nat.add]. rewrite k_get_bit. reflexivity.
Qed.
Lemma bits_blend_length w a b : length a = length b -> length (bits_blend w a b) = length a.
Proof. intros. unfold bits_blend. rewrite map3_length, seq_length. lia. Qed.

Lemma blend_length y cst s k l a b : where_shape s -> means s k l -> register s a -> register s b ->
  length (blend y cst s k a b) = st s.
Proof.
  intros Hs Hk [Ha _] [Hb _]. destruct k as [m|w]; cbn [blend].
  - destruct Hk as (Hm & _). destruct cst.
    + rewrite map3_length. lia.
    + destruct y; rewrite ?map3_length, ?bits_blend_length; lia.
  - destruct cst; [|rewrite bits_blend_length; lia].
    rewrite app_length, map3_length, repeat_length, seq_length. destruct Hs. lia.
Qed.

(* simd_builtin.h 1363-1370, simd_x86.h 760-822: all kinds of blend do the same *)
Lemma blend_ok y cst s k l a b : where_shape s -> style_ok y s -> means s k l -> register s a -> register s b ->
  replaced (sn s) l a b (blend y cst s k a b).
Proof.
  intros [Hz Hn] Hy Hk [Ha Ra] [Hb Rb] i Hi.
  assert (Hi' : (i < st s)%nat) by lia.
  specialize (Ra i Hi'). specialize (Rb i Hi'). fold (lw s) in Ra, Rb.
  assert (W : 0 <= lw s) by (unfold lw; lia).
  destruct k as [m|w]; cbn [blend].
  - pose proof Hk as Hh. destruct Hk as (Hm & Hl & He & _). specialize (He i Hi). fold (lw s) in He.
    assert (BW : nth i (map3 lane_bitwise m a b) 0 = if nth i l false then nth i b 0 else nth i a 0).
    { rewrite (map3_nth _ _ _ _ i 0 0 0) by lia. rewrite He. destruct (nth i l false).
      - apply bitwise_ones; auto.
      - apply bitwise_zero. }
    destruct cst; [exact BW|]. destruct y as [| |g|packs]; [|exact BW| |].
    + rewrite (map3_nth _ _ _ _ i 0 0 0) by lia. rewrite He. pose proof (ones_pos s Hz) as O. unfold ones in O.
      destruct (nth i l false); [|reflexivity]. destruct (Z.eqb_spec (2 ^ lw s - 1) 0); [lia|reflexivity].
    + rewrite (map3_nth _ _ _ _ i 0 0 0) by lia. rewrite He.
      destruct (signs_lw _ s g eq_refl Hy) as [Hg Hc]. remember (Z.to_nat (lw s / g)) as c eqn:Ec. clear Ec.
      destruct (nth i l false).
      * rewrite <- Hc. rewrite by_signs_ones by auto. rewrite Hc. apply Z.mod_small. auto.
      * rewrite by_signs_zero by auto. rewrite Hc. apply Z.mod_small. auto.
    + rewrite bits_blend_nth by lia. rewrite (x86_to_bits_ok packs s m l Hh Hy), of_lanes_bit. reflexivity.
  - destruct Hk as (Hsz & Hl & He). specialize (He i Hi). destruct cst.
    + rewrite app_nth1 by (rewrite map3_length, seq_length; lia).
      rewrite (map3_nth _ _ _ _ i 0%nat 0 0) by (rewrite ?seq_length; lia).
      rewrite seq_nth by auto. cbn [Nat.add]. rewrite k_get_bit, He. reflexivity.
    + rewrite bits_blend_nth by lia. rewrite He. reflexivity.
Qed.

(* simd.h 2389-2411, 2530-2566 *)
Lemma forallb_firstn_nth (p : Z -> bool) n l i : forallb p (firstn n l) = true -> (i < n)%nat -> (i < length l)%nat -> p (nth i l 0) = true.
Proof.
  intros H Hi Hl. rewrite forallb_forall in H. apply H.
  assert (E : nth i (firstn n l) 0 = nth i l 0).
  { rewrite <- (firstn_skipn n l) at 2. rewrite app_nth1; [reflexivity|]. rewrite firstn_length. lia. }
  rewrite <- E. apply nth_In. rewrite firstn_length. lia.
Qed.
Lemma active_bits n i : size_ok n -> (i < n)%nat -> Z.testbit (active_mask n) (Z.of_nat i) = true.
Proof.
  intros Hn Hi. destruct (kw_ge n Hn) as [Hk _]. unfold active_mask. destruct (Nat.leb_spec (kw n) 16).
  - replace (2 ^ Z.of_nat (kw n) - 1) with (Z.ones (Z.of_nat (kw n))) by (rewrite Z.ones_equiv; lia).
    apply Z.ones_spec_low. lia.
  - replace (2 ^ Z.of_nat (kw n) - 1) with (Z.ones (Z.of_nat (kw n))) by (rewrite Z.ones_equiv; lia).
    rewrite Z.div_pow2_bits by lia. apply Z.ones_spec_low. lia.
Qed.
Lemma known_none cp s k l i : where_shape s -> means s k l -> constprop_none_of cp s k = true -> (i < sn s)%nat -> nth i l false = false.
Proof.
  intros [Hz Hn] Hk H Hi. unfold constprop_none_of in H. apply andb_true_iff in H. destruct H as [_ H].
  destruct k as [m|w].
  - destruct Hk as (Hm & Hl & He & _). pose proof (forallb_firstn_nth _ _ _ i H Hi ltac:(lia)) as Q.
    specialize (He i Hi). fold (lw s) in He. pose proof (ones_pos s Hz) as O. unfold ones in O.
    destruct (nth i l false); [|reflexivity]. rewrite He in Q. apply Z.eqb_eq in Q. lia.
  - destruct Hk as (Hs & Hl & He). rewrite <- (He i Hi). apply Z.eqb_eq in H.
    pose proof (f_equal (fun x => Z.testbit x (Z.of_nat i)) H) as Q. cbv beta in Q.
    rewrite Z.land_spec, active_bits, Z.testbit_0_l, andb_true_r in Q by auto. exact Q.
Qed.
Lemma known_all cp s k l i : where_shape s -> means s k l -> constprop_all_of cp s k = true -> (i < sn s)%nat -> nth i l false = true.
Proof.
  intros [Hz Hn] Hk H Hi. unfold constprop_all_of in H. apply andb_true_iff in H. destruct H as [_ H].
  destruct k as [m|w].
  - destruct Hk as (Hm & Hl & He & _). pose proof (forallb_firstn_nth _ _ _ i H Hi ltac:(lia)) as Q.
    specialize (He i Hi). fold (lw s) in He. pose proof (ones_pos s Hz) as O.
    destruct (nth i l false); [reflexivity|]. rewrite He in Q. apply Z.eqb_eq in Q. lia.
  - destruct Hk as (Hs & Hl & He). rewrite <- (He i Hi). apply Z.eqb_eq in H.
    pose proof (f_equal (fun x => Z.testbit x (Z.of_nat i)) H) as Q. cbv beta in Q.
    rewrite Z.land_spec, active_bits, andb_true_r in Q by auto. exact Q.
Qed.

Lemma assign_core y c s k l lhs rhs : where_shape s -> style_ok y s -> means s k l -> register s lhs -> register s rhs ->
  replaced (sn s) l lhs rhs (masked_assign y c s k lhs rhs).
Proof.
  intros Hs Hy Hk Ha Hb. unfold masked_assign.
  destruct (constprop_none_of (kn_mask c) s k) eqn:E0.
  { intros i Hi. rewrite (known_none _ s k l i Hs Hk E0 Hi). reflexivity. }
  destruct (constprop_all_of (kn_mask c) s k) eqn:E1.
  { intros i Hi. rewrite (known_all _ s k l i Hs Hk E1 Hi). reflexivity. }
  apply blend_ok; auto.
Qed.

Lemma vbroadcast_register s v : where_shape s -> 0 <= v < 2 ^ (8 * Z.of_nat (sz s)) -> register s (vbroadcast s v).
Proof.
  intros [Hz Hn] Hv. unfold vbroadcast. split.
  - rewrite app_length, !repeat_length. lia.
  - intros i Hi. destruct (Nat.lt_ge_cases i (sn s)).
    + rewrite app_nth1 by (rewrite repeat_length; lia). rewrite (nth_indep _ 0 v) by (rewrite repeat_length; lia). rewrite nth_repeat. auto.
    + rewrite app_nth2 by (rewrite repeat_length; lia). rewrite nth_repeat. lia.
Qed.
Lemma vbroadcast_nth s v i : (i < sn s)%nat -> nth i (vbroadcast s v) 0 = v.
Proof.
  intros Hi. unfold vbroadcast. rewrite app_nth1 by (rewrite repeat_length; lia).
  rewrite (nth_indep _ 0 v) by (rewrite repeat_length; lia). apply nth_repeat.
Qed.
