(* Proofs about the multiplication of 8-bit elements. *)
From Coq Require Import ZArith List Bool Lia.
From Verif Require Import Prelude X86Lanes X86Bits X86ShiftSpec X86ShiftProofs X86ShiftVProofs X86Mul.
Import ListNotations.
Open Scope Z_scope.

Definition mul8 (a b : Z) : Z := (a * b) mod 2 ^ 8.

(* multiplication modulo 2^w only depends on the operands modulo 2^w *)
Lemma eqm_mod w a b : (exists k, a = b + k * 2 ^ w) -> a mod 2 ^ w = b mod 2 ^ w.
Proof. intros [k ->]. apply Z_mod_plus_full. Qed.
Lemma sgn_eqm w a : exists k, sgn w a = a + k * 2 ^ w.
Proof. unfold sgn. destruct (a <? 2 ^ (w - 1)); [exists 0|exists (-1)]; lia. Qed.
Lemma mod_le a w w' : 0 <= w <= w' -> (a mod 2 ^ w') mod 2 ^ w = a mod 2 ^ w.
Proof. apply uns_mod_le. Qed.
(* low byte of a product of joined lanes *)
Lemma mul_low w a b c d : 0 <= w -> ((a + 2 ^ w * b) * (c + 2 ^ w * d)) mod 2 ^ w = (a * c) mod 2 ^ w.
Proof. intros Hw. apply eqm_mod. exists (a * d + b * c + 2 ^ w * (b * d)). ring. Qed.
(* (b + garbage) * (d << w): byte above w *)
Lemma mul_shifted w s a c : 0 <= w -> 0 <= s -> ((a * (c * 2 ^ s)) mod 2 ^ (s + w)) / 2 ^ s = (a * c) mod 2 ^ w.
Proof.
  intros Hw Hs. rewrite Z.mul_assoc. rewrite Z.pow_add_r by lia. rewrite (Z.mul_comm (2 ^ s) (2 ^ w)).
  rewrite Zmult_mod_distr_r. apply Z.div_mul. apply Z.pow_nonzero; lia.
Qed.
Lemma land_65280_hi a b : lane_ok 8 a -> lane_ok 8 b -> Z.land (a + 2 ^ 8 * b) 65280 = b * 2 ^ 8.
Proof.
  intros Ha Hb. apply Z.bits_inj'. intros i Hi. rewrite Z.land_spec, tb_join, tb_mul by (auto; lia).
  change 65280 with (255 * 2 ^ 8). rewrite tb_mul, tb_255 by lia.
  destruct (Z.ltb_spec i 8), (Z.leb_spec 8 i), (Z.leb_spec 0 (i - 8)), (Z.ltb_spec (i - 8) 8); try lia; cbn [andb];
    rewrite ?andb_false_r, ?andb_true_r; auto.
  symmetry. apply (tb_small b 8); auto.
Qed.

(* the general path, one pair of bytes *)
Section Pair.
Variables (oob : oob_t) (a b c d : Z).
Hypotheses (Ha : lane_ok 8 a) (Hb : lane_ok 8 b) (Hc : lane_ok 8 c) (Hd : lane_ok 8 d).
Let ev := pmul 16 (a + 2 ^ 8 * b) (c + 2 ^ 8 * d).
Let od := pmul 16 (vsar oob 16 8 (a + 2 ^ 8 * b)) (Z.land (c + 2 ^ 8 * d) (uns 16 (0 - 256))).
Lemma ev_low : ev mod 2 ^ 8 = mul8 a c.
Proof. unfold ev, pmul. rewrite mod_le by lia. apply mul_low. lia. Qed.
Lemma od_form : exists k, od = (b + k * 2 ^ 8) * (d * 2 ^ 8) mod 2 ^ 16.
Proof.
  unfold od, pmul. change (uns 16 (0 - 256)) with 65280. rewrite land_65280_hi by auto.
  rewrite vsar_in by lia. unfold uns.
  destruct (sgn_eqm 16 (a + 2 ^ 8 * b)) as [j ->].
  assert (E : (a + 2 ^ 8 * b + j * 2 ^ 16) / 2 ^ 8 = b + j * 2 ^ 8).
  { replace (a + 2 ^ 8 * b + j * 2 ^ 16) with (a + 2 ^ 8 * (b + j * 2 ^ 8)) by lia. apply join_div; auto; lia. }
  rewrite E. rewrite Z.mul_mod_idemp_l by lia. exists j. auto.
Qed.
Lemma od_hi : od / 2 ^ 8 = mul8 b d.
Proof.
  destruct od_form as [k ->]. change (2 ^ 16) with (2 ^ (8 + 8)). rewrite mul_shifted by lia.
  unfold mul8. apply eqm_mod. exists (k * d). ring.
Qed.
Lemma od_low : od mod 2 ^ 8 = 0.
Proof.
  destruct od_form as [k ->]. rewrite mod_le by lia. rewrite Z.mul_assoc. apply Z.mod_mul. lia.
Qed.
Lemma od_ok : lane_ok 16 od. Proof. unfold od, pmul. apply lane_mod. lia. Qed.
Lemma ev_ok : lane_ok 16 ev. Proof. unfold ev, pmul. apply lane_mod. lia. Qed.
Lemma or_form : let v := Z.lor (Z.land (2 ^ 16 - 1 - uns 16 (0 - 256)) ev) od in
  v mod 2 ^ 8 = mul8 a c /\ v / 2 ^ 8 = mul8 b d.
Proof.
  intros v. unfold v. change (2 ^ 16 - 1 - uns 16 (0 - 256)) with (Z.ones 8). rewrite Z.land_comm, Z.land_ones by lia. rewrite ev_low.
  rewrite lor_mod, lor_div, od_low, od_hi by lia. rewrite Z.lor_0_r.
  assert (L : lane_ok 8 (mul8 a c)) by (apply lane_mod; lia).
  rewrite (Z.mod_small (mul8 a c)) by exact L. rewrite (Z.div_small (mul8 a c)) by exact L. auto.
Qed.
End Pair.

Lemma mul8_general oob x y : even_len x -> length y = length x -> reg_ok 8 x -> reg_ok 8 y ->
  mul8_avx512 oob x y = map2 mul8 x y /\ mul8_sse41 oob x y = map2 mul8 x y /\ mul8_sse2 oob x y = map2 mul8 x y.
Proof.
  intros He Hl. revert x y He Hl. refine (pair_ind2 _ _ _); [auto|].
  intros a b l c d m He Hl IH Hx Hy. lanes. destruct IH as (I1 & I2 & I3); auto.
  unfold mul8_avx512, mul8_sse41, mul8_sse2, mul8_even, mul8_odd, high_byte, blendv in *.
  cbn [join map map2 length repeat cut map3 blend_aa]. split; [|split].
  - rewrite I1, ev_low, od_hi by auto. auto.
  - rewrite I2, ev_low, od_hi by auto. auto.
  - rewrite I3. destruct (or_form oob a b c d ltac:(auto) ltac:(auto) ltac:(auto)) as [-> ->]. auto.
Qed.
Lemma mul8_8_spec s x y : length y = length x -> reg_ok 8 x -> reg_ok 8 y -> mul8_8 s x y = map2 mul8 x y.
Proof.
  unfold mul8_8, trunc_to, zext, sext. revert y. induction x as [|a x IH]; intros [|c y] Hl Hx Hy; try (destruct s; auto; discriminate).
  lanes. injection Hl as Hl. destruct s; cbn [map map2] in *; rewrite IH by auto; f_equal; unfold pmul, mul8; rewrite mod_le by lia; auto.
  unfold uns. destruct (sgn_eqm 8 a) as [j ->]. destruct (sgn_eqm 8 c) as [k ->].
  rewrite Z.mul_mod, !mod_le, <- Z.mul_mod by lia. apply eqm_mod. exists (a * k + j * c + j * k * 2 ^ 8). ring.
Qed.

(* ---------------- whole register in one int ------------------------------ *)
(* products that fit are exact *)
Definition imul_ok (imul : imul_t) : Prop := forall a b, - 2 ^ 31 <= a * b < 2 ^ 31 -> imul a b = a * b.
(* two's complement wrap-around: what the imul instruction gives *)
Definition imul_wrap : imul_t := fun a b => sgn 32 (uns 32 (a * b)).
Lemma imul_wrap_ok : imul_ok imul_wrap.
Proof. intros a b H. unfold imul_wrap. apply sgn_uns; lia. Qed.

Lemma sgn16_join a b : lane_ok 8 a -> lane_ok 8 b -> exists k, sgn 16 (a + 2 ^ 8 * b) = a + 2 ^ 8 * (b + k * 2 ^ 8).
Proof. intros Ha Hb. destruct (sgn_eqm 16 (a + 2 ^ 8 * b)) as [k ->]. exists k. lia. Qed.
Lemma land_mask w s v : 0 <= w -> 0 <= s -> Z.land v (Z.ones w * 2 ^ s) = ((v / 2 ^ s) mod 2 ^ w) * 2 ^ s.
Proof.
  intros Hw Hs. apply Z.bits_inj'. intros i Hi. rewrite Z.land_spec, !tb_mul by lia.
  destruct (Z.leb_spec s i); cbn [andb]; [|apply andb_false_r]. rewrite tb_mod, tb_div by lia.
  replace (i - s + s) with i by lia. destruct (Z.ltb_spec (i - s) w).
  - rewrite Z.ones_spec_low by lia. apply andb_true_r.
  - rewrite Z.ones_spec_high by lia. apply andb_false_r.
Qed.
Lemma lor_add_small w u v : 0 <= w -> lane_ok w u -> Z.lor u (v * 2 ^ w) = u + v * 2 ^ w.
Proof.
  intros Hw Hu. apply Z.bits_inj'. intros i Hi. replace (u + v * 2 ^ w) with (u + 2 ^ w * v) by lia.
  rewrite Z.lor_spec, tb_mul, tb_join by (auto; lia). destruct (Z.ltb_spec i w), (Z.leb_spec w i); try lia; cbn [andb].
  - apply orb_false_r.
  - rewrite (tb_small u w) by auto. auto.
Qed.
Lemma mul8_2_spec imul x y : imul_ok imul -> length x = 2%nat -> length y = 2%nat -> reg_ok 8 x -> reg_ok 8 y ->
  mul8_2 imul x y = map2 mul8 x y.
Proof.
  intros Hi Hlx Hly Hx Hy. destruct x as [|a [|b [|]]]; try discriminate. destruct y as [|c [|d [|]]]; try discriminate. lanes.
  unfold mul8_2, as_short. cbn [join nth map2].
  assert (Rx : - 2 ^ 15 <= sgn 16 (a + 2 ^ 8 * b) < 2 ^ 15) by (apply (sgn_range 16); [lia|apply half_ok; auto]).
  assert (Ry : - 2 ^ 15 <= sgn 16 (c + 2 ^ 8 * d) < 2 ^ 15) by (apply (sgn_range 16); [lia|apply half_ok; auto]).
  destruct (sgn16_join a b) as [j Ej]; auto. destruct (sgn16_join c d) as [k Ek]; auto. rewrite Ej, Ek in *.
  change 65280 with (Z.ones 8 * 2 ^ 8). rewrite land_mask by lia. rewrite !join_div by (auto; lia).
  assert (Ed : (d + k * 2 ^ 8) mod 2 ^ 8 = d) by (rewrite Z_mod_plus_full; apply Z.mod_small; auto). rewrite Ed.
  unfold lane_ok in *. rewrite !Hi by nia.
  change 255 with (Z.ones 8). rewrite Z.land_ones by lia. rewrite mul_low by lia. rewrite Z.mul_assoc.
  assert (L : lane_ok 8 ((a * c) mod 2 ^ 8)) by (apply lane_mod; lia).
  rewrite lor_add_small by (auto; lia). cbn [cut]. unfold uns, mul8. f_equal; [|f_equal].
  - rewrite mod_le, Z_mod_plus_full by lia. apply Z.mod_small. exact L.
  - change (2 ^ 16) with (2 ^ 8 * 2 ^ 8). rewrite Z.rem_mul_r by lia. rewrite Z_mod_plus_full, (Z.mod_small (_ mod _)) by exact L.
    rewrite Z_div_plus_full, (Z.div_small (_ mod _)), Z.add_0_l by (exact L || lia).
    rewrite join_div by (exact L || lia). apply eqm_mod. exists (j * d). ring.
Qed.

Lemma imul_wrap_eqm p q : exists k, imul_wrap p q = p * q + k * 2 ^ 32.
Proof.
  unfold imul_wrap, uns. destruct (sgn_eqm 32 ((p * q) mod 2 ^ 32)) as [j ->].
  exists (j - p * q / 2 ^ 32). pose proof (Z.div_mod (p * q) (2 ^ 32) ltac:(lia)). lia.
Qed.
(* an int made of bytes *)
Lemma int_form a b c d : exists e, sgn 32 (a + 2 ^ 8 * b + 2 ^ 16 * (c + 2 ^ 8 * d)) = a + 2 ^ 8 * (b + 2 ^ 8 * (c + 2 ^ 8 * (d + 2 ^ 8 * e))).
Proof. destruct (sgn_eqm 32 (a + 2 ^ 8 * b + 2 ^ 16 * (c + 2 ^ 8 * d))) as [k ->]. exists k. lia. Qed.
Lemma drop8 a r : lane_ok 8 a -> (a + 2 ^ 8 * r) / 2 ^ 8 = r.
Proof. intros. apply join_div; auto; lia. Qed.
Lemma drop16 a b r : lane_ok 8 a -> lane_ok 8 b -> (a + 2 ^ 8 * (b + 2 ^ 8 * r)) / 2 ^ 16 = r.
Proof. intros. change (2 ^ 16) with (2 ^ 8 * 2 ^ 8). rewrite <- Z.div_div, !drop8 by (auto; lia). auto. Qed.
Lemma drop24 a b c r : lane_ok 8 a -> lane_ok 8 b -> lane_ok 8 c -> (a + 2 ^ 8 * (b + 2 ^ 8 * (c + 2 ^ 8 * r))) / 2 ^ 24 = r.
Proof. intros. change (2 ^ 24) with (2 ^ 8 * 2 ^ 16). rewrite <- Z.div_div, drop8, drop16 by (auto; lia). auto. Qed.
Lemma low8 a r : lane_ok 8 a -> (a + 2 ^ 8 * r) mod 2 ^ 8 = a.
Proof. intros. apply join_mod; auto; lia. Qed.
(* one byte of the product: (x >> s) * (y & (0xff << s)), masked *)
Lemma byte_term s p r b : 0 <= s -> s + 8 <= 32 -> lane_ok 8 b ->
  Z.land (imul_wrap (p + 2 ^ 8 * r) (b * 2 ^ s)) (Z.ones 8 * 2 ^ s) = ((p * b) mod 2 ^ 8) * 2 ^ s.
Proof.
  intros Hs Hs' Hb. rewrite land_mask by lia. f_equal. destruct (imul_wrap_eqm (p + 2 ^ 8 * r) (b * 2 ^ s)) as [k ->].
  replace (2 ^ 32) with (2 ^ (24 - s) * 2 ^ 8 * 2 ^ s) by (rewrite <- !Z.pow_add_r by lia; f_equal; lia).
  replace ((p + 2 ^ 8 * r) * (b * 2 ^ s) + k * (2 ^ (24 - s) * 2 ^ 8 * 2 ^ s))
    with ((p * b + (r * b + k * 2 ^ (24 - s)) * 2 ^ 8) * 2 ^ s) by ring.
  rewrite Z.div_mul by (apply Z.pow_nonzero; lia). apply Z_mod_plus_full.
Qed.
(* four bytes or-ed together *)
Lemma or_bytes u0 u1 u2 q : lane_ok 8 u0 -> lane_ok 8 u1 -> lane_ok 8 u2 ->
  as8 [uns 32 (Z.lor (Z.lor (Z.lor u0 (u1 * 2 ^ 8)) (u2 * 2 ^ 16)) (q * 2 ^ 24))] = [u0; u1; u2; q mod 2 ^ 8].
Proof.
  intros H0 H1 H2. rewrite (lor_add_small 8) by (auto; lia).
  assert (L1 : lane_ok 16 (u0 + u1 * 2 ^ 8)) by (unfold lane_ok in *; lia). rewrite (lor_add_small 16) by (auto; lia).
  assert (L2 : lane_ok 24 (u0 + u1 * 2 ^ 8 + u2 * 2 ^ 16)) by (unfold lane_ok in *; lia). rewrite (lor_add_small 24) by (auto; lia).
  assert (E : uns 32 (u0 + u1 * 2 ^ 8 + u2 * 2 ^ 16 + q * 2 ^ 24) = u0 + 2 ^ 8 * u1 + 2 ^ 16 * (u2 + 2 ^ 8 * (q mod 2 ^ 8))).
  { unfold uns. symmetry. apply (Z.mod_unique _ _ (q / 2 ^ 8)).
    - left. pose proof (Z.mod_pos_bound q (2 ^ 8) ltac:(lia)). unfold lane_ok in *. lia.
    - pose proof (Z.div_mod q (2 ^ 8) ltac:(lia)). lia. }
  rewrite E. apply as8_word; auto. apply lane_mod; lia.
Qed.
Lemma or_bytes3 u0 u1 q : lane_ok 8 u0 -> lane_ok 8 u1 ->
  as8 [uns 32 (Z.lor (Z.lor u0 (u1 * 2 ^ 8)) (q * 2 ^ 16))] = [u0; u1; q mod 2 ^ 8; (q / 2 ^ 8) mod 2 ^ 8].
Proof.
  intros H0 H1. rewrite (lor_add_small 8) by (auto; lia).
  assert (L1 : lane_ok 16 (u0 + u1 * 2 ^ 8)) by (unfold lane_ok in *; lia). rewrite (lor_add_small 16) by (auto; lia).
  assert (E : uns 32 (u0 + u1 * 2 ^ 8 + q * 2 ^ 16) = u0 + 2 ^ 8 * u1 + 2 ^ 16 * (q mod 2 ^ 8 + 2 ^ 8 * ((q / 2 ^ 8) mod 2 ^ 8))).
  { unfold uns. symmetry. apply (Z.mod_unique _ _ (q / 2 ^ 8 / 2 ^ 8)).
    - left. pose proof (Z.mod_pos_bound q (2 ^ 8) ltac:(lia)). pose proof (Z.mod_pos_bound (q / 2 ^ 8) (2 ^ 8) ltac:(lia)).
      unfold lane_ok in *. lia.
    - pose proof (Z.div_mod q (2 ^ 8) ltac:(lia)). pose proof (Z.div_mod (q / 2 ^ 8) (2 ^ 8) ltac:(lia)). lia. }
  rewrite E. apply as8_word; auto; apply lane_mod; lia.
Qed.
Lemma low_term a r a' r' : Z.land (imul_wrap (a + 2 ^ 8 * r) (a' + 2 ^ 8 * r')) 255 = mul8 a a'.
Proof.
  change 255 with (Z.ones 8). rewrite Z.land_ones by lia.
  destruct (imul_wrap_eqm (a + 2 ^ 8 * r) (a' + 2 ^ 8 * r')) as [k ->].
  unfold mul8. apply eqm_mod. exists (a * r' + r * a' + 2 ^ 8 * (r * r') + k * 2 ^ 24). change (2 ^ 32) with (2 ^ 24 * 2 ^ 8). ring.
Qed.
Lemma mul8_4_spec x y : length x = 4%nat -> length y = 4%nat -> reg_ok 8 x -> reg_ok 8 y ->
  mul8_4 imul_wrap x y = map2 mul8 x y.
Proof.
  intros Hlx Hly Hx Hy. destruct x as [|a [|b [|c [|d [|]]]]]; try discriminate.
  destruct y as [|a' [|b' [|c' [|d' [|]]]]]; try discriminate. lanes.
  unfold mul8_4, as_int. rewrite !as32_cons. cbn [nth map2].
  destruct (int_form a b c d) as [e ->]. destruct (int_form a' b' c' d') as [e' ->].
  change 65280 with (Z.ones 8 * 2 ^ 8). change 16711680 with (Z.ones 8 * 2 ^ 16). change 4278190080 with (Z.ones 8 * 2 ^ 24).
  rewrite low_term. rewrite !(land_mask 8 _ (_ + _)) by lia. rewrite !drop8, !drop16, !drop24 by auto.
  rewrite !(low8 b'), !(low8 c') by auto. rewrite !byte_term by (auto; lia).
  rewrite (land_mask 8 24) by lia.
  assert (E : (uns 32 (a' + 2 ^ 8 * (b' + 2 ^ 8 * (c' + 2 ^ 8 * (d' + 2 ^ 8 * e')))) / 2 ^ 24) mod 2 ^ 8 = d').
  { assert (U : uns 32 (a' + 2 ^ 8 * (b' + 2 ^ 8 * (c' + 2 ^ 8 * (d' + 2 ^ 8 * e')))) = a' + 2 ^ 8 * (b' + 2 ^ 8 * (c' + 2 ^ 8 * d'))).
    { unfold uns. symmetry. apply (Z.mod_unique _ _ e'); unfold lane_ok in *; [left|]; lia. }
    rewrite U, drop24 by auto. apply Z.mod_small. auto. }
  rewrite E, Z.mul_assoc. rewrite or_bytes by (apply lane_mod; lia). 
  assert (E3 : (uns 32 (d + 2 ^ 8 * e) * d') mod 2 ^ 8 = mul8 d d').
  { unfold mul8, uns. rewrite Z.mul_mod, mod_le, <- Z.mul_mod by lia. apply eqm_mod. exists (e * d'). ring. }
  rewrite E3. reflexivity.
Qed.
Lemma mul8_3_spec x y i : length x = 4%nat -> length y = 4%nat -> reg_ok 8 x -> reg_ok 8 y -> (i < 3)%nat ->
  nth i (mul8_3 imul_wrap x y) 0 = mul8 (nth i x 0) (nth i y 0).
Proof.
  intros Hlx Hly Hx Hy Hi. destruct x as [|a [|b [|c [|d [|]]]]]; try discriminate.
  destruct y as [|a' [|b' [|c' [|d' [|]]]]]; try discriminate. lanes.
  unfold mul8_3, as_int. rewrite !as32_cons.
  change (nth 0 (?v :: ?l) 0) with v. cbn [nth]. 
  destruct (int_form a b c d) as [e ->]. destruct (int_form a' b' c' d') as [e' ->].
  change 65280 with (Z.ones 8 * 2 ^ 8). change 16711680 with (Z.ones 8 * 2 ^ 16).
  rewrite low_term. rewrite !(land_mask 8 _ (_ + _)) by lia. rewrite !drop8, !drop16 by auto.
  rewrite !(low8 b'), !(low8 c') by auto. rewrite !byte_term by (auto; lia).
  destruct (imul_wrap_eqm (c + 2 ^ 8 * (d + 2 ^ 8 * e)) (c' * 2 ^ 16)) as [k ->].
  replace ((c + 2 ^ 8 * (d + 2 ^ 8 * e)) * (c' * 2 ^ 16) + k * 2 ^ 32) with
    (((c + 2 ^ 8 * (d + 2 ^ 8 * e)) * c' + k * 2 ^ 16) * 2 ^ 16) by ring.
  rewrite or_bytes3 by (apply lane_mod; lia).
  destruct i as [|[|[|]]]; cbn [nth]; auto; [|lia]. unfold mul8. apply eqm_mod. exists ((d + 2 ^ 8 * e) * c' + k * 2 ^ 8).
  change (2 ^ 16) with (2 ^ 8 * 2 ^ 8). ring.
Qed.
