(* Proofs about the shift operators with a count per lane. *)
From Coq Require Import ZArith List Bool Lia.
From Verif Require Import Prelude X86Lanes X86Bits X86Shift X86ShiftSpec X86ShiftProofs.
Import ListNotations.
Open Scope Z_scope.

Definition counts (y : list Z) : Prop := Forall (fun c => 0 <= c < 32) y.
Ltac lanes ::= unfold reg_ok, counts in *; repeat match goal with H : Forall _ (_ :: _) |- _ => inversion_clear H end.

Lemma count_lane w c : 5 <= w -> 0 <= c < 32 -> lane_ok w c.
Proof. intros Hw H. split; [lia|]. assert (2 ^ 5 <= 2 ^ w) by (apply Z.pow_le_mono_r; lia). lia. Qed.

(* the top k bits of the mask lane m are the low k bits of the count c *)
Definition top (w k m c : Z) : Prop :=
  lane_ok w m /\ forall i, w - k <= i < w -> Z.testbit m i = Z.testbit c (i - (w - k)).
Lemma top_double w k m c : 0 < k <= w -> top w k m c -> top w (k - 1) (padd w m m) c.
Proof.
  intros Hk [Hm H]. split; [apply lane_mod; lia|]. intros i Hi. unfold padd. replace (m + m) with (m * 2 ^ 1) by lia.
  rewrite tb_mod, tb_mul by lia. destruct (Z.ltb_spec i w), (Z.leb_spec 1 i); try lia. cbn [andb].
  rewrite H by lia. f_equal. lia.
Qed.
Lemma top_msb w k m c : 0 < k <= w -> top w k m c -> msb w m = Z.testbit c (k - 1).
Proof. intros Hk [Hm H]. unfold msb. rewrite H by lia. f_equal. lia. Qed.
Lemma top_map_double w k m c : 0 < k <= w -> Forall2 (top w k) m c -> Forall2 (top w (k - 1)) (map2 (padd w) m m) c.
Proof.
  intros Hk H. induction H; cbn [map2]; constructor; auto. apply top_double; auto.
Qed.
(* x << k as 16-bit lanes leaves the low 8 - k bits of every byte in the top *)
Lemma mask8_top oob y : even_len y -> counts y -> Forall2 (top 8 3) (cut 8 (map (vshl oob 16 5) (join 8 y))) y.
Proof.
  revert y. refine (pair_ind _ _ _); [intros; constructor|]. intros a b l He IH H. lanes.
  assert (lane_ok 8 a) by (apply count_lane; lia). assert (lane_ok 8 b) by (apply count_lane; lia).
  cbn [join map cut]. rewrite vshl_in by lia.
  assert (Hv : lane_ok 16 (((a + 2 ^ 8 * b) * 2 ^ 5) mod 2 ^ 16)) by (apply lane_mod; lia).
  constructor; [|constructor; [|auto]].
  - split; [apply lane_mod; lia|]. intros i Hi. tb; tb_close.
  - split; [apply cut_join_div; [lia|exact Hv]|]. intros i Hi. tb; tb_close.
Qed.

Lemma F2_length {A B} (R : A -> B -> Prop) l m : Forall2 R l m -> length l = length m.
Proof. induction 1; simpl; auto. Qed.
Ltac len := rewrite ?map2_length, ?map_length; lia.

(* ---------------- 8-bit left -------------------------------------------- *)
Definition sel8 (f : Z -> Z) (m a : Z) : Z := if msb 8 m then f a else a.
Lemma shlv8_step_spec oob k keep mask x : 0 <= k < 16 -> keep = keepl k -> even_len x -> reg_ok 8 x ->
  length mask = length x ->
  shlv8_step oob k keep mask x = map2 (sel8 (fun a => cpp_shl 8 a k)) mask x.
Proof.
  intros Hk -> He Hx Hl. unfold shlv8_step. rewrite shl_keep; auto; [|intros; apply vshl_in; lia].
  unfold blendv. clear He Hx. revert x Hl. induction mask as [|m mask IH]; intros [|a x] Hl; try discriminate; auto.
  cbn [map map2 map3]. injection Hl as Hl. rewrite IH by auto. auto.
Qed.
Lemma sel8_ok f mask x : (forall a, lane_ok 8 a -> lane_ok 8 (f a)) -> reg_ok 8 x -> length mask = length x ->
  reg_ok 8 (map2 (sel8 f) mask x).
Proof.
  intros Hf Hx. revert mask. induction Hx as [|a x Ha Hx IH]; intros [|m mask] Hl; try discriminate; [constructor|].
  injection Hl as Hl. cbn [map2]. constructor; [|apply IH; auto]. unfold sel8. destruct (msb 8 m); auto.
Qed.
Lemma even_eq {A B} (x : list A) (y : list B) : length y = length x -> even_len x -> even_len y.
Proof. unfold even_len. intros ->. auto. Qed.

Lemma if_same {A} (b : bool) (a : A) : (if b then a else a) = a.
Proof. destruct b; auto. Qed.
Lemma pick8 (f : Z -> Z -> Z) a c m : 0 <= c < 32 -> top 8 3 m c -> lane_ok 8 a ->
  (forall k, 0 <= k -> lane_ok 8 (f a k)) -> f a 0 = a ->
  (forall j k, 0 <= j -> 0 <= k -> f (f a j) k = f a (j + k)) ->
  let m1 := padd 8 m m in let m2 := padd 8 m1 m1 in
  (if Z.land c 248 =? 0
   then sel8 (fun v => f v 1) m2 (sel8 (fun v => f v 2) m1 (sel8 (fun v => f v 4) m a)) else 0)
  = if c <? 8 then f a c else 0.
Proof.
  intros Hc Hm Ha Hf H0 Hadd m1 m2.
  pose proof (top_double 8 3 m c ltac:(lia) Hm) as Hm1. pose proof (top_double 8 2 m1 c ltac:(lia) Hm1) as Hm2.
  unfold sel8. rewrite (top_msb 8 3 m c), (top_msb 8 2 m1 c), (top_msb 8 1 m2 c) by (auto; lia).
  assert (Hf0 : forall k, 0 <= k -> f a k = f a (0 + k)) by auto.
  clear Hm Hm1 Hm2. clearbody m1 m2. clear m m1 m2.
  cases32 c; cbn [Z.testbit Z.land Z.sub Z.add Z.opp Z.pos_sub Pos.testbit Pos.pred_N Pos.pred_double Z.eqb Z.ltb Z.compare
    Pos.compare Pos.compare_cont Pos.land N.succ_double N.double Z.of_N Pos.Nsucc_double Pos.Ndouble]; auto;
    rewrite ?Hadd by lia; auto.
Qed.

Lemma shlv8_sse_spec oob x y : even_len x -> length y = length x -> reg_ok 8 x -> counts y ->
  shlv8_sse oob x y = map2 (cpp_shl 8) x y.
Proof.
  intros He Hl Hx Hy. unfold shlv8_sse. pose proof (mask8_top oob y (even_eq x y Hl He) Hy) as Hm.
  set (mask := cut 8 _) in *. clearbody mask. pose proof (F2_length _ _ _ Hm) as Hml.
  rewrite (shlv8_step_spec oob 4) by (auto; first [lia|congruence|reflexivity]).
  rewrite shlv8_step_spec; try lia; auto.
  2:{ apply (even_eq x); auto. len. }
  2:{ apply sel8_ok; auto; [|congruence]. intros a Ha. apply cpp_shl_ok. lia. }
  2:{ len. }
  assert (Hd : forall m z, length m = length z -> reg_ok 8 z ->
    blendv 8 m z (map2 (padd 8) z z) = map2 (sel8 (fun a => cpp_shl 8 a 1)) m z).
  { clear. unfold blendv. induction m as [|m0 m IH]; intros [|a z] Hl Hz; try discriminate; auto. lanes.
    injection Hl as Hl. cbn [map2 map3]. rewrite IH by auto. f_equal. unfold sel8, cpp_shl, padd.
    replace (a + a) with (a * 2 ^ 1) by lia. auto. }
  rewrite Hd.
  2:{ len. }
  2:{ apply sel8_ok; [| |len]. { intros a Ha. apply cpp_shl_ok. lia. }
      apply sel8_ok; auto; [|congruence]. intros a Ha. apply cpp_shl_ok. lia. }
  clear Hd Hml He. revert x Hl Hx. induction Hm as [|m c mask y Hmc Hm IH]; intros [|a x] Hl Hx; try discriminate; auto.
  lanes. injection Hl as Hl. cbn [map2]. rewrite IH; auto. f_equal.
  rewrite (pick8 (cpp_shl 8)); auto.
  - destruct (Z.ltb_spec c 8); auto. symmetry. apply shl_big; lia.
  - intros. apply cpp_shl_ok. lia.
  - apply shl_0. auto.
  - intros. apply shl_add; lia.
Qed.
Lemma shlv8_avx512_spec x y : length y = length x -> reg_ok 8 x -> counts y ->
  shlv8_avx512 x y = map2 (cpp_shl 8) x y.
Proof.
  unfold shlv8_avx512, trunc_to, zext. revert y.
  induction x as [|a x IH]; intros [|c y] Hl Hx Hy; try discriminate; auto. lanes. injection Hl as Hl.
  cbn [map2 map]. rewrite IH by auto. f_equal. rewrite psll_spec by lia. unfold cpp_shl.
  apply (lane_ext 8); try (apply lane_mod; lia). intros i Hi. rewrite !tb_mod by lia.
  destruct (Z.ltb_spec i 8), (Z.ltb_spec i 16); try lia; auto.
Qed.

(* ---------------- 16-, 32- and 64-bit left ------------------------------- *)
Lemma shlv16_avx512_spec x y : length y = length x -> shlv16_avx512 x y = map2 (cpp_shl 16) x y.
Proof.
  unfold shlv16_avx512. revert y. induction x as [|a x IH]; intros [|c y] Hl; try discriminate; auto.
  injection Hl as Hl. cbn [map2]. rewrite IH by auto. rewrite psll_spec by lia. auto.
Qed.
Lemma land_65535 v : Z.land v 65535 = v mod 2 ^ 16.
Proof. change 65535 with (Z.ones 16). apply Z.land_ones. lia. Qed.
Lemma tb_hi16 i : 0 <= i -> Z.testbit 4294901760 i = (16 <=? i) && (i <? 32).
Proof.
  intros Hi. change 4294901760 with (Z.ones 16 * 2 ^ 16). rewrite tb_mul by lia.
  destruct (Z.leb_spec 16 i); cbn [andb]; auto.
  destruct (Z.ltb_spec i 32); [apply Z.ones_spec_low|apply Z.ones_spec_high]; lia.
Qed.
Lemma shlv16_avx2_spec oob x y : even_len x -> length y = length x -> reg_ok 16 x -> counts y ->
  shlv16_avx2 oob x y = map2 (cpp_shl 16) x y.
Proof.
  intros He Hl. revert x y He Hl. refine (pair_ind2 _ _ _); [auto|].
  intros a b l c d m He Hl IH Hx Hy. lanes. unfold shlv16_avx2 in *. cbn [join map map2 cut blend_aa].
  rewrite IH by auto. assert (lane_ok 16 c) by (apply count_lane; lia).
  rewrite land_65535, join_mod by (auto; lia). rewrite (vshr_in oob 32 16), join_div by (auto; lia).
  rewrite !vshl_in by lia. unfold cpp_shl.
  f_equal; [|f_equal]; apply (lane_ext 16); try (apply lane_mod; lia).
  - intros i Hi. tb; tb_close.
  - apply cut_join_div; [lia|apply lane_mod; lia].
  - intros i Hi. rewrite tb_div, tb_mod, tb_mul, Z.land_spec, tb_mod, tb_mul by lia.
    destruct (Z.ltb_spec (i + 16) 32), (Z.ltb_spec i 16), (Z.leb_spec d (i + 16)), (Z.leb_spec d i); try lia; cbn [andb]; auto.
    + rewrite tb_hi16, tb_join by (auto; lia). destruct (Z.ltb_spec (i + 16 - d) 16); [lia|].
      destruct (Z.leb_spec 16 (i + 16 - d)), (Z.ltb_spec (i + 16 - d) 32); try lia. rewrite andb_true_r. f_equal. lia.
    + rewrite tb_hi16 by lia. destruct (Z.leb_spec 16 (i + 16 - d)); lia.
Qed.
(* the float with exponent field 127 + c is 2^c *)
Lemma cvttps_pow2 c : 0 <= c < 32 -> cvttps ((c + 127) * 2 ^ 23) = 2 ^ c.
Proof. intros H. cases32 c; reflexivity. Qed.
Lemma shlv32_sse_spec oob x y : length y = length x -> counts y -> shlv32_sse oob x y = map2 (cpp_shl 32) x y.
Proof.
  unfold shlv32_sse. revert y. induction x as [|a x IH]; intros [|c y] Hl Hy; try discriminate; auto. lanes.
  injection Hl as Hl. cbn [map2 map]. rewrite IH by auto. f_equal. rewrite vshl_in by lia. unfold padd.
  assert (E : ((c * 2 ^ 23) mod 2 ^ 32 + 1065353216) mod 2 ^ 32 = (c + 127) * 2 ^ 23).
  { rewrite (Z.mod_small (c * 2 ^ 23)) by lia. rewrite Z.mod_small by lia. lia. }
  rewrite E, cvttps_pow2 by auto. reflexivity.
Qed.
Lemma shlv64_sse_spec x0 x1 y0 y1 : shlv64_sse [x0; x1] [y0; y1] = [cpp_shl 64 x0 y0; cpp_shl 64 x1 y1].
Proof. cbn [shlv64_sse nth]. rewrite !psll_spec by lia. auto. Qed.
(* what the odd lanes really get *)
Definition leak (x0 x1 y0 y1 : Z) : Z := (x1 * Z.lor (2 ^ y0 / 2 ^ 16) (2 ^ y1 mod 2 ^ 16)) mod 2 ^ 16.
Lemma shlv16_sse_pair oob a b l c d m : 0 <= c < 32 -> 0 <= d < 32 ->
  shlv16_sse oob (a :: b :: l) (c :: d :: m) = cpp_shl 16 a c :: leak a b c d :: shlv16_sse oob l m.
Proof.
  intros Hc Hd. unfold shlv16_sse. cbn [map join map2 cut].
  assert (Ec : padd 16 127 c = c + 127) by (unfold padd; rewrite Z.mod_small; lia).
  assert (Ed : padd 16 127 d = d + 127) by (unfold padd; rewrite Z.mod_small; lia).
  rewrite Ec, Ed. rewrite (vshr_in oob 32 16), join_div by (try lia; unfold lane_ok; lia).
  rewrite !(vshl_in oob 32 23) by lia.
  assert (E1 : ((c + 127 + 2 ^ 16 * (d + 127)) * 2 ^ 23) mod 2 ^ 32 = (c + 127) * 2 ^ 23).
  { replace ((c + 127 + 2 ^ 16 * (d + 127)) * 2 ^ 23) with ((c + 127) * 2 ^ 23 + ((d + 127) * 2 ^ 7) * 2 ^ 32) by lia.
    rewrite Z_mod_plus_full. apply Z.mod_small. lia. }
  rewrite E1, (Z.mod_small ((d + 127) * 2 ^ 23)) by lia. rewrite !cvttps_pow2 by auto.
  rewrite vshl_in by lia.
  assert (P : forall e, 0 <= e < 32 -> lane_ok 32 (2 ^ e)).
  { intros e He. split; [apply Z.pow_nonneg; lia|apply Z.pow_lt_mono_r; lia]. }
  assert (Hz : lane_ok 32 ((2 ^ d * 2 ^ 16) mod 2 ^ 32)) by (apply lane_mod; lia).
  f_equal; [|f_equal].
  - unfold pmul, cpp_shl. rewrite lor_mod by lia.
    assert (E0 : ((2 ^ d * 2 ^ 16) mod 2 ^ 32) mod 2 ^ 16 = 0).
    { apply (lane_ext 16); [apply lane_mod; lia|unfold lane_ok; lia|]. intros i Hi. rewrite Z.bits_0. tb; tb_close. }
    rewrite E0, Z.lor_0_r. apply Z.mul_mod_idemp_r. lia.
  - unfold pmul, leak. f_equal. f_equal. rewrite lor_div by lia. f_equal.
    apply (lane_ext 16); [apply cut_join_div; [lia|exact Hz]|apply lane_mod; lia|].
    intros i Hi. tb; tb_close.
Qed.
Lemma leak_ok x0 x1 y0 y1 : 0 <= y0 < 16 -> 0 <= y1 < 32 -> leak x0 x1 y0 y1 = cpp_shl 16 x1 y1.
Proof.
  intros H0 H1. unfold leak, cpp_shl. rewrite (Z.div_small (2 ^ y0)).
  - rewrite Z.lor_0_l. apply Z.mul_mod_idemp_r. lia.
  - split; [apply Z.pow_nonneg; lia|apply Z.pow_lt_mono_r; lia].
Qed.
(* counts of even lanes *)
Fixpoint even_counts (y : list Z) : Prop := match y with c :: _ :: r => 0 <= c < 16 /\ even_counts r | _ => True end.
Lemma shlv16_sse_spec oob x y : even_len x -> length y = length x -> counts y -> even_counts y ->
  shlv16_sse oob x y = map2 (cpp_shl 16) x y.
Proof.
  intros He Hl. revert x y He Hl. refine (pair_ind2 _ _ _); [auto|].
  intros a b l c d m He Hl IH Hy Hc. lanes. destruct Hc as [Hc Hr]. rewrite shlv16_sse_pair by auto.
  rewrite leak_ok, IH by auto. auto.
Qed.

(* ---------------- 8-bit right, unsigned ---------------------------------- *)
Definition keepr (k : Z) : Z := 65280 + 255 / 2 ^ k.
Lemma keepr_bits k i : 0 <= k -> 0 <= i < 16 -> Z.testbit (keepr k) i = (8 <=? i) || (i + k <? 8).
Proof.
  intros Hk Hi. unfold keepr. replace (65280 + 255 / 2 ^ k) with (255 / 2 ^ k + 2 ^ 8 * 255) by lia.
  rewrite tb_join; [|lia| |lia].
  - rewrite tb_div, !tb_255 by lia. destruct (Z.ltb_spec i 8), (Z.leb_spec 8 i); try lia; cbn [orb]; lia.
  - apply lane_div; [auto|]. unfold lane_ok; lia.
Qed.
Lemma shrv8u_step_spec oob k keep mask x : 0 <= k < 16 -> keep = keepr k -> even_len x -> reg_ok 8 x ->
  length mask = length x ->
  shrv8u_step oob k keep mask x = map2 (sel8 (fun a => cpp_shr_unsigned a k)) mask x.
Proof.
  intros Hk -> He Hx Hl. unfold shrv8u_step.
  assert (E : cut 8 (map (fun v => Z.land v (keepr k)) (map (vshr oob 16 k) (join 8 x))) = map (fun a => cpp_shr_unsigned a k) x).
  { clear Hl mask. revert x He Hx. refine (pair_ind _ _ _); [auto|]. intros a b l He IH H. lanes.
    cbn [join map cut]. rewrite IH by auto. rewrite vshr_in by lia. unfold cpp_shr_unsigned.
    assert (lane_ok 16 ((a + 2 ^ 8 * b) / 2 ^ k)) by (apply lane_div; [lia|apply half_ok; auto]).
    assert (lane_ok 16 (Z.land ((a + 2 ^ 8 * b) / 2 ^ k) (keepr k))).
    { apply lane_land; [lia|auto|]. unfold keepr. assert (0 <= 255 / 2 ^ k); [|lia]. apply Z.div_pos; [lia|]. apply Z.pow_pos_nonneg; lia. }
    f_equal; [|f_equal]; apply (lane_ext 8).
    - apply lane_mod; lia.
    - apply lane_div; auto. lia.
    - intros i Hi. rewrite tb_mod, Z.land_spec, keepr_bits, tb_div, tb_join by (auto; lia).
      destruct (Z.ltb_spec i 8), (Z.leb_spec 8 i), (Z.ltb_spec (i + k) 8); try lia; cbn [andb orb];
        rewrite ?andb_true_r, ?andb_false_r, tb_div by lia; auto. symmetry. apply (tb_small a 8); auto.
    - apply cut_join_div; [lia|auto].
    - apply lane_div; auto. lia.
    - intros i Hi. rewrite tb_div, Z.land_spec, keepr_bits, !tb_div, tb_join by (auto; lia).
      destruct (Z.leb_spec 8 (i + 8)), (Z.ltb_spec (i + 8 + k) 8); try lia. cbn [orb]. rewrite andb_true_r. f_equal. lia. }
  rewrite E. unfold blendv. clear He Hx E. revert x Hl.
  induction mask as [|m mask IH]; intros [|a x] Hl; try discriminate; auto.
  cbn [map map2 map3]. injection Hl as Hl. rewrite IH by auto. auto.
Qed.
Lemma shrv8u_sse_spec oob x y : even_len x -> length y = length x -> reg_ok 8 x -> counts y ->
  shrv8u_sse oob x y = map2 cpp_shr_unsigned x y.
Proof.
  intros He Hl Hx Hy. unfold shrv8u_sse. pose proof (mask8_top oob y (even_eq x y Hl He) Hy) as Hm.
  set (mask := cut 8 _) in *. clearbody mask. pose proof (F2_length _ _ _ Hm) as Hml.
  assert (R : forall k m z, 0 <= k -> reg_ok 8 z -> length m = length z ->
    reg_ok 8 (map2 (sel8 (fun a => cpp_shr_unsigned a k)) m z)).
  { intros k m z Hk Hz Hlz. apply sel8_ok; auto. intros. apply shru_ok; auto. }
  rewrite (shrv8u_step_spec oob 4) by (auto; first [lia|congruence|reflexivity]).
  rewrite (shrv8u_step_spec oob 2); try lia; auto.
  2:{ apply (even_eq x); auto. len. }
  2:{ apply R; auto; [lia|congruence]. }
  2:{ len. }
  rewrite (shrv8u_step_spec oob 1); try lia; auto.
  2:{ apply (even_eq x); auto. len. }
  2:{ apply R; [lia| |len]. apply R; auto; [lia|congruence]. }
  2:{ len. }
  clear R Hml He. revert x Hl Hx. induction Hm as [|m c mask y Hmc Hm IH]; intros [|a x] Hl Hx; try discriminate; auto.
  lanes. injection Hl as Hl. cbn [map2]. rewrite IH; auto. f_equal.
  rewrite (pick8 cpp_shr_unsigned); auto.
  - destruct (Z.ltb_spec c 8); auto. symmetry. apply (shru_big 8); auto; lia.
  - intros. apply shru_ok; auto.
  - apply shru_0.
  - intros. apply shru_add; lia.
Qed.
Lemma shrv8u_avx512_spec x y : length y = length x -> reg_ok 8 x -> shrv8u_avx512 x y = map2 cpp_shr_unsigned x y.
Proof.
  unfold shrv8u_avx512, trunc_to, zext. revert y.
  induction x as [|a x IH]; intros [|c y] Hl Hx; try discriminate; auto. lanes. injection Hl as Hl.
  cbn [map2 map]. rewrite IH by auto. f_equal.
  assert (lane_ok 16 a) by (destruct H; split; lia). rewrite psrl_spec by (auto; lia).
  destruct (Z.ltb_spec c 0) as [Hc|Hc].
  - unfold cpp_shr_unsigned. rewrite Z.pow_neg_r, Zdiv_0_r by auto. auto.
  - apply Z.mod_small. apply (shru_ok 8); auto.
Qed.
Lemma shrv8s_avx512_spec x y : length y = length x -> reg_ok 8 x -> counts y -> shrv8s_avx512 x y = map2 (cpp_shr_signed 8) x y.
Proof.
  unfold shrv8s_avx512, trunc_to, sext. revert y.
  induction x as [|a x IH]; intros [|c y] Hl Hx Hy; try discriminate; auto. lanes. injection Hl as Hl.
  cbn [map2 map]. rewrite IH by auto. f_equal.
  assert (Ec : uns 16 (sgn 8 c) = c).
  { unfold uns, sgn. destruct (Z.ltb_spec c (2 ^ (8 - 1))); [apply Z.mod_small; lia|lia]. }
  assert (La : lane_ok 16 (uns 16 (sgn 8 a))) by (apply lane_mod; lia).
  rewrite Ec, psra_spec by (auto; lia). pose proof (sgn_range 8 a ltac:(lia) ltac:(auto)) as Hr.
  unfold cpp_shr_signed. rewrite sgn_uns by (auto; lia).
  unfold uns. apply (lane_ext 8); try (apply lane_mod; lia). intros i Hi. rewrite !tb_mod by lia.
  destruct (Z.ltb_spec i 8), (Z.ltb_spec i 16); try lia; auto.
Qed.

(* 64 bytes with AVX-512BW *)
Lemma shrv8u_64_spec x y : even_len x -> length y = length x -> reg_ok 8 x -> counts y ->
  shrv8u_64 x y = map2 cpp_shr_unsigned x y.
Proof.
  intros He Hl. revert x y He Hl. refine (pair_ind2 _ _ _); [auto|].
  intros a b l c d m He Hl IH Hx Hy. lanes. unfold shrv8u_64 in *. cbn [join map map2 cut blend_aa maskz_55].
  rewrite IH by auto. assert (lane_ok 8 c) by (apply count_lane; lia). assert (lane_ok 8 d) by (apply count_lane; lia).
  rewrite (psrl_spec 16 8) by (try lia; apply half_ok; auto). unfold cpp_shr_unsigned at 1. rewrite join_div by (auto; lia).
  rewrite !Z.mul_0_r, !Z.add_0_r. assert (lane_ok 16 a) by (destruct H0; split; lia).
  rewrite !psrl_spec by (first [lia|assumption|apply half_ok; assumption]).
  f_equal; [|f_equal].
  - apply Z.mod_small. apply (shru_ok 8); auto; lia.
  - unfold cpp_shr_unsigned. rewrite Z.div_div, (Z.mul_comm (2 ^ d) (2 ^ 8)), <- Z.div_div, join_div by (try apply Z.pow_nonzero; try apply Z.pow_pos_nonneg; auto; lia). auto.
Qed.
Lemma shrv8s_64_spec x y : even_len x -> length y = length x -> reg_ok 8 x -> counts y ->
  shrv8s_64 x y = map2 (cpp_shr_signed 8) x y.
Proof.
  intros He Hl. unfold shrv8s_64. revert x y He Hl. refine (pair_ind2 _ _ _); [auto|].
  intros a b l c d m He Hl IH Hx Hy. lanes. cbn [length].
  replace (S (S (length m)) / 2)%nat with (S (length m / 2)).
  2:{ replace (S (S (length m))) with (length m + 1 * 2)%nat by lia. rewrite Nat.div_add by lia. lia. }
  cbn [join map map2 cut blend_aa maskz_55 set1_16].
  rewrite IH by auto. assert (lane_ok 8 c) by (apply count_lane; lia). assert (lane_ok 8 d) by (apply count_lane; lia).
  rewrite (psrl_spec 16 8) by (try lia; apply half_ok; auto). unfold cpp_shr_unsigned at 1. rewrite join_div by (auto; lia).
  assert (Ec : padd 8 c 8 = c + 8) by (unfold padd; rewrite Z.mod_small; lia). rewrite Ec.
  rewrite !Z.mul_0_r, !Z.add_0_r. rewrite psll_in by lia.
  assert (La : lane_ok 16 (((a + 2 ^ 8 * b) * 2 ^ 8) mod 2 ^ 16)) by (apply lane_mod; lia).
  assert (Lb : lane_ok 16 (a + 2 ^ 8 * b)) by (apply half_ok; auto).
  rewrite !psra_spec by (auto; lia).
  pose proof (shrs_ok 16 (a + 2 ^ 8 * b) d ltac:(lia)) as L1.
  f_equal; [|f_equal]; apply (lane_ext 8); try (apply shrs_ok; lia).
  - apply lane_mod; lia.
  - intros i Hi. rewrite tb_mod, !tb_shrs by (auto; lia).
    destruct (Z.ltb_spec i 8), (Z.ltb_spec i 16); try lia; cbn [andb]. tb; tb_close.
  - apply cut_join_div; [lia|exact L1].
  - intros i Hi. rewrite tb_div, !tb_shrs by (auto; lia).
    destruct (Z.ltb_spec i 8), (Z.ltb_spec (i + 8) 16); try lia; cbn [andb]. tb; tb_close.
Qed.

(* ---------------- AVX2, four bytes at a time ------------------------------ *)
Lemma tb_top8 i : 0 <= i -> Z.testbit 4278190080 i = (24 <=? i) && (i <? 32).
Proof.
  intros Hi. change 4278190080 with (Z.ones 8 * 2 ^ 24). rewrite tb_mul by lia.
  destruct (Z.leb_spec 24 i); cbn [andb]; auto.
  destruct (Z.ltb_spec i 32); [apply Z.ones_spec_low|apply Z.ones_spec_high]; lia.
Qed.
(* sh is a shift of a 32-bit lane whose top byte is the 8-bit shift of the top byte *)
Definition top_byte_shift (sh : oob_t -> Z -> Z -> Z -> Z) (sp : Z -> Z -> Z) : Prop :=
  (forall oob n v, 0 <= n < 32 -> lane_ok 32 v -> lane_ok 32 (sh oob 32 n v)) /\
  (forall a n, 0 <= n < 32 -> lane_ok 8 a -> lane_ok 8 (sp a n)) /\
  (forall oob n v a i, 0 <= n < 32 -> lane_ok 32 v -> lane_ok 8 a ->
    (forall j, 0 <= j < 8 -> Z.testbit v (j + 24) = Z.testbit a j) -> 0 <= i < 8 ->
    Z.testbit (sh oob 32 n v) (i + 24) = Z.testbit (sp a n) i).
Lemma top_byte_vsar : top_byte_shift vsar (cpp_shr_signed 8).
Proof.
  repeat split.
  - rewrite vsar_in by lia. apply lane_mod; lia.
  - rewrite vsar_in by lia. apply lane_mod; lia.
  - apply shrs_ok; lia.
  - apply shrs_ok; lia.
  - intros oob n v a i Hn Hv Ha H Hi. rewrite vsar_in by lia. change (uns 32 (sgn 32 v / 2 ^ n)) with (cpp_shr_signed 32 v n).
    rewrite !tb_shrs by (auto; lia). destruct (Z.ltb_spec (i + 24) 32), (Z.ltb_spec i 8); try lia. cbn [andb].
    rewrite <- H by lia. f_equal. lia.
Qed.
Lemma top_byte_vshr : top_byte_shift vshr cpp_shr_unsigned.
Proof.
  unfold top_byte_shift. split; [|split].
  - intros oob n v Hn Hv. rewrite vshr_in by lia. apply lane_div; auto; lia.
  - intros a n Hn Ha. apply lane_div; auto; lia.
  - intros oob n v a i Hn Hv Ha H Hi. rewrite vshr_in by lia. unfold cpp_shr_unsigned. rewrite !tb_div by lia.
    destruct (Z.ltb_spec (i + n) 8).
    + rewrite <- H by lia. f_equal. lia.
    + rewrite (tb_small v 32), (tb_small a 8) by (auto; lia). auto.
Qed.
Lemma shrv8_avx2_lane_spec sh sp oob a b c d a' b' c' d' :
  top_byte_shift sh sp -> lane_ok 8 a -> lane_ok 8 b -> lane_ok 8 c -> lane_ok 8 d ->
  0 <= a' < 32 -> 0 <= b' < 32 -> 0 <= c' < 32 -> 0 <= d' < 32 ->
  shrv8_avx2_lane sh oob (a + 2 ^ 8 * b + 2 ^ 16 * (c + 2 ^ 8 * d)) (a' + 2 ^ 8 * b' + 2 ^ 16 * (c' + 2 ^ 8 * d'))
  = sp a a' + 2 ^ 8 * sp b b' + 2 ^ 16 * (sp c c' + 2 ^ 8 * sp d d').
Proof.
  intros (Hok & Hsp & Hbit) Ha Hb Hc Hd Ha' Hb' Hc' Hd'. unfold shrv8_avx2_lane.
  set (x := a + 2 ^ 8 * b + 2 ^ 16 * (c + 2 ^ 8 * d)). set (y := a' + 2 ^ 8 * b' + 2 ^ 16 * (c' + 2 ^ 8 * d')).
  assert (Hx : lane_ok 32 x) by (apply word_ok; auto).
  assert (Cd : vshr oob 32 24 y = d') by (rewrite vshr_in by lia; unfold y; symmetry; apply (Z.div_unique _ _ _ (a' + 2 ^ 8 * b' + 2 ^ 16 * c')); lia).
  assert (S : forall k e r q, 0 <= k < 32 -> 0 <= e < 32 -> y * 2 ^ k = q * 2 ^ 32 + e * 2 ^ 24 + r -> 0 <= r < 2 ^ 24 ->
    vshr oob 32 24 (vshl oob 32 k y) = e).
  { intros k e r q Hk He Hy Hr. rewrite vshl_in, vshr_in by lia. rewrite Hy.
    rewrite <- Z.add_assoc, Z.add_comm, Z_mod_plus_full. rewrite Z.mod_small by lia.
    symmetry. apply (Z.div_unique _ _ _ r); lia. }
  assert (Cc : vshr oob 32 24 (vshl oob 32 8 y) = c').
  { apply (S 8 c' ((a' + 2 ^ 8 * b') * 2 ^ 8) d'); unfold y; lia. }
  assert (Cb : vshr oob 32 24 (vshl oob 32 16 y) = b').
  { apply (S 16 b' (a' * 2 ^ 16) (c' + 2 ^ 8 * d')); unfold y; lia. }
  assert (Ca : vshr oob 32 24 (vshl oob 32 24 y) = a').
  { apply (S 24 a' 0 (b' + 2 ^ 8 * c' + 2 ^ 16 * d')); unfold y; lia. }
  rewrite Ca, Cb, Cc, Cd. clear Ca Cb Cc Cd S. clearbody y.
  assert (Lx : forall k, 0 <= k < 32 -> lane_ok 32 (vshl oob 32 k x)).
  { intros k Hk. rewrite vshl_in by lia. apply lane_mod; lia. }
  assert (Bd : forall i, 0 <= i < 8 -> Z.testbit (sh oob 32 d' x) (i + 24) = Z.testbit (sp d d') i).
  { intros i Hi. apply Hbit; auto. intros j Hj. unfold x. tb; tb_close. }
  assert (Bc : forall i, 0 <= i < 8 -> Z.testbit (sh oob 32 c' (vshl oob 32 8 x)) (i + 24) = Z.testbit (sp c c') i).
  { intros i Hi. apply Hbit; auto; [apply Lx; lia|]. intros j Hj. rewrite vshl_in by lia. unfold x. tb; tb_close. }
  assert (Bb : forall i, 0 <= i < 8 -> Z.testbit (sh oob 32 b' (vshl oob 32 16 x)) (i + 24) = Z.testbit (sp b b') i).
  { intros i Hi. apply Hbit; auto; [apply Lx; lia|]. intros j Hj. rewrite vshl_in by lia. unfold x. tb; tb_close. }
  assert (Ba : forall i, 0 <= i < 8 -> Z.testbit (sh oob 32 a' (vshl oob 32 24 x)) (i + 24) = Z.testbit (sp a a') i).
  { intros i Hi. apply Hbit; auto; [apply Lx; lia|]. intros j Hj. rewrite vshl_in by lia. unfold x. tb; tb_close. }
  pose proof (Hok oob d' x Hd' Hx) as Ld.
  pose proof (Hok oob c' _ Hc' (Lx 8 ltac:(lia))) as Lc.
  pose proof (Hok oob b' _ Hb' (Lx 16 ltac:(lia))) as Lb.
  pose proof (Hok oob a' _ Ha' (Lx 24 ltac:(lia))) as La.
  set (vd := sh oob 32 d' x) in *. set (vc := sh oob 32 c' (vshl oob 32 8 x)) in *.
  set (vb := sh oob 32 b' (vshl oob 32 16 x)) in *. set (va := sh oob 32 a' (vshl oob 32 24 x)) in *.
  clearbody vd vc vb va. rewrite !vshr_in by lia.
  pose proof (Hsp a a' Ha' Ha) as Sa. pose proof (Hsp b b' Hb' Hb) as Sb.
  pose proof (Hsp c c' Hc' Hc) as Sc. pose proof (Hsp d d' Hd' Hd) as Sd.
  set (ra := sp a a') in *. set (rb := sp b b') in *. set (rc := sp c c') in *. set (rd := sp d d') in *.
  clearbody ra rb rc rd.
  assert (Lm : forall v, lane_ok 32 v -> lane_ok 32 (Z.land v 4278190080)) by (intros v Hv; apply lane_land; [lia|auto|lia]).
  apply (lane_ext 32).
  - repeat (apply lane_lor; [lia| |]); auto; apply lane_div; auto; lia.
  - apply word_ok; auto.
  - intros i Hi. rewrite !Z.lor_spec, !tb_div, !Z.land_spec, !tb_top8 by lia.
    assert (T : forall v j, 0 <= j < 32 -> 32 <= i + j -> lane_ok 32 v -> Z.testbit v (i + j) = false)
      by (intros; apply (tb_small v 32); auto; lia).
    destruct (Z.ltb_spec i 8); [|destruct (Z.ltb_spec i 16); [|destruct (Z.ltb_spec i 24)]].
    + replace (Z.testbit (ra + _ + _) i) with (Z.testbit ra i) by (tb; tb_close). rewrite <- Ba by lia.
      destruct (Z.leb_spec 24 i), (Z.leb_spec 24 (i + 8)), (Z.leb_spec 24 (i + 16)); try lia. cbn [andb]. rewrite !andb_false_r. auto.
    + replace (Z.testbit (ra + _ + _) i) with (Z.testbit rb (i - 8)) by (tb; tb_close). rewrite <- Bb by lia.
      destruct (Z.leb_spec 24 i), (Z.leb_spec 24 (i + 8)), (Z.leb_spec 24 (i + 16)), (Z.ltb_spec (i + 16) 32); try lia. cbn [andb].
      rewrite !andb_false_r, andb_true_r, (T va) by (auto; lia). cbn [orb]. rewrite orb_false_r. f_equal. lia.
    + replace (Z.testbit (ra + _ + _) i) with (Z.testbit rc (i - 16)) by (tb; tb_close). rewrite <- Bc by lia.
      destruct (Z.leb_spec 24 i), (Z.leb_spec 24 (i + 8)), (Z.ltb_spec (i + 8) 32); try lia. cbn [andb].
      rewrite !andb_false_r, andb_true_r, (T va), (T vb) by (auto; lia). cbn [orb andb]. rewrite !orb_false_r. f_equal. lia.
    + replace (Z.testbit (ra + _ + _) i) with (Z.testbit rd (i - 24)) by (tb; tb_close). rewrite <- Bd by lia.
      destruct (Z.leb_spec 24 i), (Z.ltb_spec i 32); try lia. cbn [andb].
      rewrite andb_true_r, (T va), (T vb), (T vc) by (auto; lia). cbn [orb andb]. rewrite !orb_false_r. f_equal. lia.
Qed.
Lemma as8_word a b c d l : lane_ok 8 a -> lane_ok 8 b -> lane_ok 8 c -> lane_ok 8 d ->
  as8 ((a + 2 ^ 8 * b + 2 ^ 16 * (c + 2 ^ 8 * d)) :: l) = a :: b :: c :: d :: as8 l.
Proof.
  intros Ha Hb Hc Hd. rewrite as8_cons. pose proof (half_ok a b Ha Hb) as L1.
  rewrite join_mod, join_div by (auto; lia). rewrite !join_div by (auto; lia). rewrite (join_mod 8 a), (join_mod 8 c) by (auto; lia). auto.
Qed.
Lemma shrv8_avx2_spec sh sp oob x y : top_byte_shift sh sp -> quad_len x -> length y = length x -> reg_ok 8 x -> counts y ->
  as8 (map2 (shrv8_avx2_lane sh oob) (as32 x) (as32 y)) = map2 sp x y.
Proof.
  intros Hs Hq Hl. revert x y Hq Hl. refine (quad_ind2 _ _ _); [auto|].
  intros a b c d l a' b' c' d' m He Hl IH Hx Hy. lanes. rewrite !as32_cons. cbn [map2].
  rewrite (shrv8_avx2_lane_spec sh sp) by auto. destruct Hs as (Hok & Hsp & Hbit). rewrite as8_word by auto. rewrite IH by auto. auto.
Qed.

(* ---------------- 8-bit right, signed, SSE -------------------------------- *)
(* the high byte of a 16-bit lane *)
Definition hi8 (v : Z) : Z := v / 2 ^ 8.
Lemma hi8_ok v : lane_ok 16 v -> lane_ok 8 (hi8 v).
Proof. intros H. apply cut_join_div; [lia|exact H]. Qed.
Lemma hi8_sar oob k v : 0 <= k < 16 -> lane_ok 16 v -> hi8 (vsar oob 16 k v) = cpp_shr_signed 8 (hi8 v) k.
Proof.
  intros Hk Hv. unfold hi8. rewrite vsar_in by lia. change (uns 16 (sgn 16 v / 2 ^ k)) with (cpp_shr_signed 16 v k).
  pose proof (shrs_ok 16 v k ltac:(lia)) as L. pose proof (hi8_ok v Hv) as L'. unfold hi8 in L'.
  apply (lane_ext 8); [apply (hi8_ok _ L)|apply shrs_ok; lia|].
  intros i Hi. rewrite tb_div, !tb_shrs, tb_div by (auto; lia).
  destruct (Z.ltb_spec (i + 8) 16), (Z.ltb_spec i 8); try lia. cbn [andb]. f_equal. lia.
Qed.
(* one step on 16-bit lanes: the high byte is shifted where the mask of its
   high byte (sse41) or of the lane (sse2) says so *)
Lemma step41_pair oob k m0 m1 v mask x : 0 <= k < 16 -> lane_ok 16 v ->
  exists v', shrv8s_step41 oob k (m0 :: m1 :: mask) (v :: x) = v' :: shrv8s_step41 oob k mask x /\
    lane_ok 16 v' /\ hi8 v' = sel8 (fun a => cpp_shr_signed 8 a k) m1 (hi8 v).
Proof.
  intros Hk Hv. unfold shrv8s_step41. cbn [map cut]. unfold blendv. cbn [map3 join]. eexists. split; [reflexivity|].
  assert (Hs : lane_ok 16 (vsar oob 16 k v)) by (rewrite vsar_in by lia; apply lane_mod; lia).
  assert (L0 : lane_ok 8 (if msb 8 m0 then vsar oob 16 k v mod 2 ^ 8 else v mod 2 ^ 8)) by (destruct (msb 8 m0); apply lane_mod; lia).
  split.
  - apply half_ok; auto. destruct (msb 8 m1); apply hi8_ok; auto.
  - unfold hi8 at 1. rewrite join_div by (auto; lia). unfold sel8. destruct (msb 8 m1); auto. apply hi8_sar; auto.
Qed.
Lemma maskl_pair oob m0 m1 mask : lane_ok 8 m0 -> maskl oob (m0 :: m1 :: mask) = 0 :: m0 :: maskl oob mask.
Proof.
  intros H0. unfold maskl. cbn [join map cut]. rewrite vshl_in by lia. f_equal; [|f_equal].
  - apply (lane_ext 8); [apply lane_mod; lia|unfold lane_ok; lia|]. intros i Hi. rewrite Z.bits_0. tb; tb_close.
  - apply (lane_ext 8); auto.
    + apply (hi8_ok (_ mod 2 ^ 16)). apply lane_mod; lia.
    + intros i Hi. tb; tb_close.
Qed.
Lemma land_65280 xh xl : lane_ok 16 xh -> lane_ok 16 xl -> Z.lor (Z.land xh 65280) (xl / 2 ^ 8) = hi8 xl + 2 ^ 8 * hi8 xh.
Proof.
  intros Hh Hl. pose proof (hi8_ok _ Hh) as Lh. pose proof (hi8_ok _ Hl) as Ll. apply (lane_ext 16).
  - apply lane_lor; [lia| |apply lane_div; auto; lia]. apply lane_land; [lia|auto|lia].
  - apply half_ok; auto.
  - intros i Hi. rewrite Z.lor_spec, Z.land_spec, tb_join by (auto; lia).
    change 65280 with (255 * 2 ^ 8). rewrite tb_mul, tb_255 by lia. unfold hi8. rewrite !tb_div by lia.
    destruct (Z.ltb_spec i 8), (Z.leb_spec 8 i), (Z.leb_spec 0 (i - 8)), (Z.ltb_spec (i - 8) 8); try lia; cbn [andb].
    + rewrite andb_false_r. auto.
    + rewrite tb_div, andb_true_r, (tb_small xl 16) by (auto; lia). rewrite orb_false_r. f_equal. lia.
Qed.
Lemma low_byte_hi8 oob a b : lane_ok 8 a -> lane_ok 8 b ->
  lane_ok 16 (vshl oob 16 8 (a + 2 ^ 8 * b)) /\ hi8 (vshl oob 16 8 (a + 2 ^ 8 * b)) = a.
Proof.
  intros Ha Hb. rewrite vshl_in by lia. assert (L : lane_ok 16 (((a + 2 ^ 8 * b) * 2 ^ 8) mod 2 ^ 16)) by (apply lane_mod; lia).
  split; auto. apply (lane_ext 8); auto; [apply hi8_ok; auto|]. intros i Hi. unfold hi8. tb; tb_close.
Qed.
Definition shrs_sse (x c : Z) : Z := if c <? 8 then cpp_shr_signed 8 x c else 0.
Lemma pick8s a c m : 0 <= c < 32 -> top 8 3 m c -> lane_ok 8 a ->
  let m1 := padd 8 m m in let m2 := padd 8 m1 m1 in
  (if Z.land c 248 =? 0
   then sel8 (fun v => cpp_shr_signed 8 v 1) m2 (sel8 (fun v => cpp_shr_signed 8 v 2) m1 (sel8 (fun v => cpp_shr_signed 8 v 4) m a)) else 0)
  = shrs_sse a c.
Proof.
  intros Hc Hm Ha. apply (pick8 (cpp_shr_signed 8)); auto.
  - intros. apply shrs_ok; lia.
  - apply shrs_0; auto; lia.
  - intros. apply shrs_add; auto; lia.
Qed.
Lemma sel8_ok1 m a k : lane_ok 8 a -> lane_ok 8 (sel8 (fun v => cpp_shr_signed 8 v k) m a).
Proof. intros. unfold sel8. destruct (msb 8 m); auto. apply shrs_ok; lia. Qed.
(* one pair of bytes through the three steps *)
Lemma shrv8s_sse41_pair oob a b l c d m : lane_ok 8 a -> lane_ok 8 b -> 0 <= c < 32 -> 0 <= d < 32 ->
  shrv8s_sse41 oob (a :: b :: l) (c :: d :: m) = shrs_sse a c :: shrs_sse b d :: shrv8s_sse41 oob l m.
Proof.
  intros Ha Hb Hc Hd. unfold shrv8s_sse41 at 1. cbn [join map cut].
  assert (Hm : Forall2 (top 8 3) (cut 8 (map (vshl oob 16 5) (join 8 [c; d]))) [c; d]).
  { apply mask8_top; [exists 1%nat; auto|]. constructor; auto. }
  cbn [join map cut] in Hm. set (m0 := vshl oob 16 5 (c + 2 ^ 8 * d) mod 2 ^ 8) in *. set (m1 := vshl oob 16 5 (c + 2 ^ 8 * d) / 2 ^ 8) in *.
  clearbody m0 m1. inversion Hm as [|? ? ? ? T0 Hm']; subst. inversion Hm' as [|? ? ? ? T1 _]; subst. clear Hm Hm'.
  pose proof (top_double 8 3 m0 c ltac:(lia) T0) as T0'. pose proof (top_double 8 2 _ c ltac:(lia) T0') as T0''.
  pose proof (proj1 T0) as K0. pose proof (proj1 T0') as K0'. pose proof (proj1 T0'') as K0''.
  destruct (low_byte_hi8 oob a b Ha Hb) as [Ll El]. pose proof (half_ok a b Ha Hb) as Lh.
  assert (Eh : hi8 (a + 2 ^ 8 * b) = b) by (apply join_div; auto; lia).
  set (xh := a + 2 ^ 8 * b) in *. set (xl := vshl oob 16 8 xh) in *. clearbody xh xl.
  cbn [map2]. rewrite !maskl_pair by auto.
  destruct (step41_pair oob 4 m0 m1 xh (cut 8 (map (vshl oob 16 5) (join 8 m))) (join 8 l) ltac:(lia) Lh) as (h1 & -> & Lh1 & Eh1).
  destruct (step41_pair oob 4 0 m0 xl (maskl oob (cut 8 (map (vshl oob 16 5) (join 8 m)))) (map (vshl oob 16 8) (join 8 l)) ltac:(lia) Ll) as (l1 & -> & Ll1 & El1).
  match goal with |- context [shrv8s_step41 oob 2 (?p :: ?q :: ?r) (h1 :: ?t)] =>
    destruct (step41_pair oob 2 p q h1 r t ltac:(lia) Lh1) as (h2 & -> & Lh2 & Eh2) end.
  match goal with |- context [shrv8s_step41 oob 2 (?p :: ?q :: ?r) (l1 :: ?t)] =>
    destruct (step41_pair oob 2 p q l1 r t ltac:(lia) Ll1) as (l2 & -> & Ll2 & El2) end.
  match goal with |- context [shrv8s_step41 oob 1 (?p :: ?q :: ?r) (h2 :: ?t)] =>
    destruct (step41_pair oob 1 p q h2 r t ltac:(lia) Lh2) as (h3 & -> & Lh3 & Eh3) end.
  match goal with |- context [shrv8s_step41 oob 1 (?p :: ?q :: ?r) (l2 :: ?t)] =>
    destruct (step41_pair oob 1 p q l2 r t ltac:(lia) Ll2) as (l3 & -> & Ll3 & El3) end.
  cbn [map map2 cut]. rewrite (vshr_in oob 16 8 l3), land_65280 by (auto; lia).
  pose proof (hi8_ok _ Ll3) as Z1. rewrite join_mod, join_div by (auto; lia).
  rewrite El3, El2, El1, El, Eh3, Eh2, Eh1, Eh. rewrite !pick8s by auto. reflexivity.
Qed.
Lemma shrv8s_sse41_spec oob x y : even_len x -> length y = length x -> reg_ok 8 x -> counts y ->
  shrv8s_sse41 oob x y = map2 shrs_sse x y.
Proof.
  intros He Hl. revert x y He Hl. refine (pair_ind2 _ _ _); [auto|].
  intros a b l c d m He Hl IH Hx Hy. lanes. rewrite shrv8s_sse41_pair by auto. rewrite IH by auto. auto.
Qed.
Lemma sel16_msb m a b : Forall (lane_ok 16) m -> sel16 m a b = blendv 16 m a b.
Proof.
  intros Hm. unfold sel16, blendv. revert a b. induction Hm as [|k m Hk Hm IH]; intros [|x a] [|y b]; auto.
  cbn [map3]. rewrite IH. rewrite msb_ltb by (auto; lia). f_equal.
  destruct (Z.ltb_spec 32767 k), (Z.leb_spec (2 ^ (16 - 1)) k); auto; lia.
Qed.
Definition sel16l (f : Z -> Z) (m a : Z) : Z := if msb 16 m then f a else a.
Lemma mask16_top oob k c : 0 <= c < 32 -> 0 <= k < 16 -> top 16 (16 - k) (vshl oob 16 k c) c.
Proof.
  intros Hc Hk. rewrite vshl_in by lia. split; [apply lane_mod; lia|]. intros i Hi. tb; tb_close.
Qed.
Lemma mask16_hi oob a b : 0 <= a < 32 -> 0 <= b < 32 -> top 16 3 (vshl oob 16 5 (a + 2 ^ 8 * b)) b.
Proof.
  intros Ha Hb. assert (lane_ok 8 a) by (apply count_lane; lia). rewrite vshl_in by lia.
  split; [apply lane_mod; lia|]. intros i Hi. tb; tb_close.
Qed.
Lemma mask16_lo oob a b : 0 <= a < 32 -> 0 <= b < 32 -> top 16 3 (vshl oob 16 13 (a + 2 ^ 8 * b)) a.
Proof.
  intros Ha Hb. assert (lane_ok 8 a) by (apply count_lane; lia). rewrite vshl_in by lia.
  split; [apply lane_mod; lia|]. intros i Hi. tb; tb_close.
Qed.
Lemma pick8h a c m : 0 <= c < 32 -> top 16 3 m c -> lane_ok 8 a ->
  let m1 := padd 16 m m in let m2 := padd 16 m1 m1 in
  (if Z.land c 248 =? 0
   then sel16l (fun v => cpp_shr_signed 8 v 1) m2 (sel16l (fun v => cpp_shr_signed 8 v 2) m1 (sel16l (fun v => cpp_shr_signed 8 v 4) m a)) else 0)
  = shrs_sse a c.
Proof.
  intros Hc Hm Ha m1 m2.
  pose proof (top_double 16 3 m c ltac:(lia) Hm) as Hm1. pose proof (top_double 16 2 m1 c ltac:(lia) Hm1) as Hm2.
  assert (Hc' : lane_ok 8 (c * 2 ^ 5 mod 2 ^ 8)) by (apply lane_mod; lia).
  assert (T : top 8 3 (c * 2 ^ 5 mod 2 ^ 8) c) by (split; auto; intros i Hi; tb; tb_close).
  rewrite <- (pick8s a c _ Hc T Ha).
  pose proof (top_double 8 3 _ c ltac:(lia) T) as T1. pose proof (top_double 8 2 _ c ltac:(lia) T1) as T2.
  unfold sel16l, sel8.
  rewrite (top_msb 16 3 m c), (top_msb 16 2 m1 c), (top_msb 16 1 m2 c) by (auto; lia).
  rewrite (top_msb 8 3 _ c ltac:(lia) T), (top_msb 8 2 _ c ltac:(lia) T1), (top_msb 8 1 _ c ltac:(lia) T2). reflexivity.
Qed.
Lemma sel_hi8 oob k m v : 0 <= k < 16 -> lane_ok 16 m -> lane_ok 16 v ->
  let v' := if 32767 <? m then vsar oob 16 k v else v in
  lane_ok 16 v' /\ hi8 v' = sel16l (fun a => cpp_shr_signed 8 a k) m (hi8 v).
Proof.
  intros Hk Hm Hv v'. unfold v', sel16l. rewrite msb_ltb by (auto; lia).
  destruct (Z.ltb_spec 32767 m), (Z.leb_spec (2 ^ (16 - 1)) m); try lia.
  - split; [rewrite vsar_in by lia; apply lane_mod; lia|apply hi8_sar; auto].
  - split; auto.
Qed.
Lemma shrv8s_sse2_pair oob a b l c d m : lane_ok 8 a -> lane_ok 8 b -> 0 <= c < 32 -> 0 <= d < 32 ->
  shrv8s_sse2 oob (a :: b :: l) (c :: d :: m) = shrs_sse a c :: shrs_sse b d :: shrv8s_sse2 oob l m.
Proof.
  intros Ha Hb Hc Hd. unfold shrv8s_sse2 at 1, sel16. cbn [join map cut map2 map3].
  pose proof (mask16_hi oob c d Hc Hd) as Th. pose proof (mask16_lo oob c d Hc Hd) as Tl.
  set (mh := vshl oob 16 5 (c + 2 ^ 8 * d)) in *. set (ml := vshl oob 16 13 (c + 2 ^ 8 * d)) in *. clearbody mh ml.
  pose proof (top_double 16 3 mh d ltac:(lia) Th) as Th'. pose proof (top_double 16 2 _ d ltac:(lia) Th') as Th''.
  pose proof (top_double 16 3 ml c ltac:(lia) Tl) as Tl'. pose proof (top_double 16 2 _ c ltac:(lia) Tl') as Tl''.
  destruct (low_byte_hi8 oob a b Ha Hb) as [Ll El]. pose proof (half_ok a b Ha Hb) as Lh.
  assert (Eh : hi8 (a + 2 ^ 8 * b) = b) by (apply join_div; auto; lia).
  set (xh := a + 2 ^ 8 * b) in *. set (xl := vshl oob 16 8 xh) in *. clearbody xh xl.
  destruct (sel_hi8 oob 4 mh xh ltac:(lia) (proj1 Th) Lh) as [Lh1 Eh1]. set (h1 := if 32767 <? mh then vsar oob 16 4 xh else xh) in *. clearbody h1.
  destruct (sel_hi8 oob 4 ml xl ltac:(lia) (proj1 Tl) Ll) as [Ll1 El1]. set (l1 := if 32767 <? ml then vsar oob 16 4 xl else xl) in *. clearbody l1.
  destruct (sel_hi8 oob 2 _ h1 ltac:(lia) (proj1 Th') Lh1) as [Lh2 Eh2]. set (h2 := if 32767 <? padd 16 mh mh then vsar oob 16 2 h1 else h1) in *. clearbody h2.
  destruct (sel_hi8 oob 2 _ l1 ltac:(lia) (proj1 Tl') Ll1) as [Ll2 El2]. set (l2 := if 32767 <? padd 16 ml ml then vsar oob 16 2 l1 else l1) in *. clearbody l2.
  destruct (sel_hi8 oob 1 _ h2 ltac:(lia) (proj1 Th'') Lh2) as [Lh3 Eh3].
  set (h3 := if 32767 <? padd 16 (padd 16 mh mh) (padd 16 mh mh) then vsar oob 16 1 h2 else h2) in *. clearbody h3.
  destruct (sel_hi8 oob 1 _ l2 ltac:(lia) (proj1 Tl'') Ll2) as [Ll3 El3].
  set (l3 := if 32767 <? padd 16 (padd 16 ml ml) (padd 16 ml ml) then vsar oob 16 1 l2 else l2) in *. clearbody l3.
  rewrite (vshr_in oob 16 8 l3), land_65280 by (auto; lia).
  pose proof (hi8_ok _ Ll3) as Z1. rewrite join_mod, join_div by (auto; lia).
  rewrite El3, El2, El1, El, Eh3, Eh2, Eh1, Eh. rewrite !pick8h by auto. reflexivity.
Qed.
Lemma shrv8s_sse2_spec oob x y : even_len x -> length y = length x -> reg_ok 8 x -> counts y ->
  shrv8s_sse2 oob x y = map2 shrs_sse x y.
Proof.
  intros He Hl. revert x y He Hl. refine (pair_ind2 _ _ _); [auto|].
  intros a b l c d m He Hl IH Hx Hy. lanes. rewrite shrv8s_sse2_pair by auto. rewrite IH by auto. auto.
Qed.

(* ---------------- 16-bit right -------------------------------------------- *)
Lemma shrv16u_avx512_spec x y : length y = length x -> reg_ok 16 x -> shrv16u_avx512 x y = map2 cpp_shr_unsigned x y.
Proof.
  unfold shrv16u_avx512. revert y. induction x as [|a x IH]; intros [|c y] Hl Hx; try discriminate; auto. lanes.
  injection Hl as Hl. cbn [map2]. rewrite IH by auto. rewrite psrl_spec by (auto; lia). auto.
Qed.
Lemma shrv16s_avx512_spec x y : length y = length x -> reg_ok 16 x -> counts y -> shrv16s_avx512 x y = map2 (cpp_shr_signed 16) x y.
Proof.
  unfold shrv16s_avx512. revert y. induction x as [|a x IH]; intros [|c y] Hl Hx Hy; try discriminate; auto. lanes.
  injection Hl as Hl. cbn [map2]. rewrite IH by auto. rewrite psra_spec by (auto; lia). auto.
Qed.
Lemma shrv16u_avx2_spec oob x y : even_len x -> length y = length x -> reg_ok 16 x -> counts y ->
  shrv16u_avx2 oob x y = map2 cpp_shr_unsigned x y.
Proof.
  intros He Hl. revert x y He Hl. refine (pair_ind2 _ _ _); [auto|].
  intros a b l c d m He Hl IH Hx Hy. lanes. unfold shrv16u_avx2 in *. cbn [join map map2 cut blend_aa].
  rewrite IH by auto. assert (lane_ok 16 c) by (apply count_lane; lia).
  rewrite !land_65535, !join_mod by (auto; lia). rewrite (vshr_in oob 32 16), join_div by (auto; lia).
  rewrite !vshr_in by lia. unfold cpp_shr_unsigned.
  f_equal; [|f_equal].
  - apply Z.mod_small. apply (lane_div 16); auto; lia.
  - rewrite Z.div_div, (Z.mul_comm (2 ^ d) (2 ^ 16)), <- Z.div_div, join_div by (try apply Z.pow_nonzero; try apply Z.pow_pos_nonneg; auto; lia). auto.
Qed.
Lemma shrv16s_avx2_spec oob x y : even_len x -> length y = length x -> reg_ok 16 x -> counts y ->
  shrv16s_avx2 oob x y = map2 (cpp_shr_signed 16) x y.
Proof.
  intros He Hl. revert x y He Hl. refine (pair_ind2 _ _ _); [auto|].
  intros a b l c d m He Hl IH Hx Hy. lanes. unfold shrv16s_avx2 in *. cbn [join map map2 cut blend_aa].
  rewrite IH by auto. assert (lane_ok 16 c) by (apply count_lane; lia). assert (lane_ok 16 d) by (apply count_lane; lia).
  rewrite land_65535, join_mod by (auto; lia).
  assert (Ed : vsar oob 32 16 (c + 2 ^ 16 * d) = d).
  { rewrite vsar_in by lia. unfold sgn. destruct (Z.ltb_spec (c + 2 ^ 16 * d) (2 ^ (32 - 1))); [|lia].
    rewrite join_div by (auto; lia). unfold uns. apply Z.mod_small. lia. }
  rewrite Ed. rewrite vshl_in by lia.
  assert (L1 : lane_ok 32 (((a + 2 ^ 16 * b) * 2 ^ 16) mod 2 ^ 32)) by (apply lane_mod; lia).
  assert (L2 : lane_ok 32 (a + 2 ^ 16 * b)) by (apply (lane_join 16); auto; lia).
  assert (V : forall k v, 0 <= k < 32 -> vsar oob 32 k v = cpp_shr_signed 32 v k) by (intros; apply vsar_in; lia).
  rewrite !V by lia. pose proof (shrs_ok 32 (((a + 2 ^ 16 * b) * 2 ^ 16) mod 2 ^ 32) c ltac:(lia)) as L3.
  pose proof (shrs_ok 32 (a + 2 ^ 16 * b) d ltac:(lia)) as L4.
  f_equal; [|f_equal]; apply (lane_ext 16); try (apply shrs_ok; lia).
  - apply lane_mod; lia.
  - intros i Hi. rewrite tb_mod, !tb_shrs by (auto; lia).
    destruct (Z.ltb_spec i 16), (Z.ltb_spec i 32), (Z.ltb_spec (Z.min (i + 16) (32 - 1)) 32); try lia; cbn [andb]. tb; tb_close.
  - apply cut_join_div; [lia|exact L4].
  - intros i Hi. rewrite tb_div, !tb_shrs by (auto; lia).
    destruct (Z.ltb_spec i 16), (Z.ltb_spec (i + 16) 32); try lia; cbn [andb]. tb; tb_close.
Qed.
(* what the SSE code computes in every lane *)
Definition cut16 (sp : Z -> Z -> Z) (x c : Z) : Z := if c <? 16 then sp x c else 0.
Definition shift16 (sh : oob_t -> Z -> Z -> Z -> Z) (sp : Z -> Z -> Z) : Prop :=
  (forall oob k a, 0 <= k < 16 -> sh oob 16 k a = sp a k) /\
  (forall a k, 0 <= k -> lane_ok 16 a -> lane_ok 16 (sp a k)) /\
  (forall a, lane_ok 16 a -> sp a 0 = a) /\ (forall k, 0 <= k -> sp 0 k = 0) /\
  (forall a j k, lane_ok 16 a -> 0 <= j -> 0 <= k -> sp (sp a j) k = sp a (j + k)).
Lemma shift16_sar : shift16 vsar (cpp_shr_signed 16).
Proof.
  split; [intros; apply vsar_in; lia|]. split; [intros; apply shrs_ok; lia|].
  split; [intros; apply shrs_0; auto; lia|]. split; [|intros; apply shrs_add; auto; lia].
  intros. unfold cpp_shr_signed, sgn, uns. cbn [Z.ltb Z.compare Z.sub Z.pow Z.pow_pos Pos.iter]. rewrite Zdiv_0_l. auto.
Qed.
Lemma shift16_shr : shift16 vshr cpp_shr_unsigned.
Proof.
  split; [intros; apply vshr_in; lia|]. split; [intros; apply shru_ok; auto|].
  split; [intros; apply shru_0|]. split; [|intros; apply shru_add; auto].
  intros. apply Zdiv_0_l.
Qed.
Definition tops (k m c : Z) : Prop := top 16 k m c /\ forall i, 16 - k <= i < 16 -> Z.testbit m (i - 8) = Z.testbit m i.
Lemma tops_double k m c : 0 < k <= 8 -> tops k m c -> tops (k - 1) (padd 16 m m) c.
Proof.
  intros Hk [H1 H2]. split; [apply top_double; auto; lia|]. intros i Hi. unfold padd. replace (m + m) with (m * 2 ^ 1) by lia.
  rewrite !tb_mod, !tb_mul by lia. destruct (Z.ltb_spec i 16), (Z.leb_spec 1 i), (Z.ltb_spec (i - 8) 16), (Z.leb_spec 1 (i - 8)); try lia.
  cbn [andb]. rewrite <- (H2 (i - 1)) by lia. f_equal. lia.
Qed.
Lemma pick16 (sh : oob_t -> Z -> Z -> Z -> Z) sp oob a c m : shift16 sh sp -> 0 <= c < 32 -> lane_ok 16 a ->
  top 16 5 m c ->
  let m1 := padd 16 m m in let m2 := padd 16 m1 m1 in let m3 := padd 16 m2 m2 in let m4 := padd 16 m3 m3 in
  sel16l (sh oob 16 1) m4 (sel16l (sh oob 16 2) m3 (sel16l (sh oob 16 4) m2 (sel16l (sh oob 16 8) m1 (sel16l (fun _ => 0) m a))))
  = cut16 sp a c.
Proof.
  intros (Hsh & Hok & H0 & Hz & Hadd) Hc Ha Hm m1 m2 m3 m4.
  pose proof (top_double 16 5 m c ltac:(lia) Hm) as Hm1. pose proof (top_double 16 4 m1 c ltac:(lia) Hm1) as Hm2.
  pose proof (top_double 16 3 m2 c ltac:(lia) Hm2) as Hm3. pose proof (top_double 16 2 m3 c ltac:(lia) Hm3) as Hm4.
  unfold sel16l. rewrite (top_msb 16 5 m c), (top_msb 16 4 m1 c), (top_msb 16 3 m2 c), (top_msb 16 2 m3 c), (top_msb 16 1 m4 c) by (auto; lia).
  clear Hm Hm1 Hm2 Hm3 Hm4. clearbody m1 m2 m3 m4. clear m m1 m2 m3 m4.
  rewrite !Hsh by lia. unfold cut16.
  cases32 c; cbn [Z.testbit Z.sub Z.add Z.opp Z.pos_sub Pos.testbit Pos.pred_N Pos.pred_double Z.ltb Z.compare
    Pos.compare Pos.compare_cont Z.odd]; auto; repeat (rewrite (Hadd a) by (auto; lia)); repeat (rewrite Hz by lia); try reflexivity.
  symmetry. apply H0. auto.
Qed.
Lemma shrv16_sse2_spec sh sp oob x y : shift16 sh sp -> length y = length x -> reg_ok 16 x -> counts y ->
  shrv16_sse2 sh oob x y = map2 (cut16 sp) x y.
Proof.
  intros Hs. revert y. induction x as [|a x IH]; intros [|c y] Hl Hx Hy; try discriminate; auto. lanes.
  injection Hl as Hl. unfold shrv16_sse2, blendv in *. cbn [map map2 map3]. rewrite IH by auto. f_equal.
  pose proof (mask16_top oob 11 c ltac:(lia) ltac:(lia)) as T.
  exact (pick16 sh sp oob a c _ Hs ltac:(lia) ltac:(auto) T).
Qed.
Lemma shrv16_step41_spec k m c a b mask x x' : 0 < k <= 8 -> tops k m c -> lane_ok 16 a -> lane_ok 16 b ->
  shrv16_step41 (m :: mask) (a :: x) (b :: x') = sel16l (fun _ => b) m a :: shrv16_step41 mask x x'.
Proof.
  intros Hk [[Hm _] H] Ha Hb. unfold shrv16_step41, blendv. cbn [cut map3 join]. f_equal. unfold sel16l, msb.
  rewrite tb_mod, tb_div by lia. replace (Z.testbit m (8 - 1)) with (Z.testbit m 15) by (rewrite <- H by lia; f_equal; lia).
  change (8 - 1 + 8) with 15. change (16 - 1) with 15. change (8 - 1 <? 8) with true. cbn [andb].
  destruct (Z.testbit m 15); apply cut_join_eq; lia.
Qed.
Lemma shrv16_sse41_spec sh sp oob x y : shift16 sh sp -> length y = length x -> reg_ok 16 x -> counts y ->
  shrv16_sse41 sh oob x y = map2 (cut16 sp) x y.
Proof.
  intros Hs. pose proof Hs as (Hsh & Hok & _). revert y. induction x as [|a x IH]; intros [|c y] Hl Hx Hy; try discriminate; auto. lanes.
  injection Hl as Hl. unfold shrv16_sse41 at 1. cbn [map map2].
  assert (T : tops 5 (Z.lor (vshl oob 16 3 c) (vshl oob 16 11 c)) c).
  { assert (lane_ok 5 c) by (split; lia). rewrite !vshl_in by lia. split; [split|].
    - apply lane_lor; try apply lane_mod; lia.
    - intros i Hi. rewrite Z.lor_spec. tb; try tb_close. rewrite (tb_small c 5 (i - 3)) by (auto; lia). cbn [orb]. f_equal; lia.
    - intros i Hi. rewrite !Z.lor_spec. tb; try tb_close.
      rewrite (tb_small c 5 (i - 3)) by (auto; lia). cbn [orb]. rewrite orb_false_r. f_equal; lia. }
  set (m := Z.lor _ _) in *. clearbody m.
  pose proof (tops_double 5 m c ltac:(lia) T) as T1. pose proof (tops_double 4 _ c ltac:(lia) T1) as T2.
  pose proof (tops_double 3 _ c ltac:(lia) T2) as T3. pose proof (tops_double 2 _ c ltac:(lia) T3) as T4.
  assert (S : forall k mm v, 0 <= k < 16 -> lane_ok 16 v -> lane_ok 16 (sel16l (sh oob 16 k) mm v)).
  { intros k mm v Hk Hv. unfold sel16l. destruct (msb 16 mm); auto. rewrite Hsh by auto. apply Hok; auto; lia. }
  assert (S' : forall k v, 0 <= k < 16 -> lane_ok 16 v -> lane_ok 16 (sh oob 16 k v)).
  { intros k v Hk Hv. rewrite Hsh by auto. apply Hok; auto; lia. }
  assert (L0 : lane_ok 16 (sel16l (fun _ => 0) m a)) by (unfold sel16l; destruct (msb 16 m); auto; unfold lane_ok; lia).
  rewrite (shrv16_step41_spec 5 m c) by (auto; try lia; unfold lane_ok; lia). cbn [map].
  rewrite (shrv16_step41_spec 4 _ c); [|lia|exact T1|exact L0|apply S'; [lia|exact L0]]. cbn [map].
  pose proof (S 8 (padd 16 m m) _ ltac:(lia) L0) as L1. unfold sel16l at 1 in L1.
  rewrite (shrv16_step41_spec 3 _ c); [|lia|exact T2|exact L1|apply S'; [lia|exact L1]]. cbn [map].
  pose proof (S 4 (padd 16 (padd 16 m m) (padd 16 m m)) _ ltac:(lia) L1) as L2. unfold sel16l at 1 in L2.
  rewrite (shrv16_step41_spec 2 _ c); [|lia|exact T3|exact L2|apply S'; [lia|exact L2]]. cbn [map].
  pose proof (S 2 (let p := padd 16 (padd 16 m m) (padd 16 m m) in padd 16 p p) _ ltac:(lia) L2) as L3. unfold sel16l at 1 in L3.
  rewrite (shrv16_step41_spec 1 _ c); [|lia|exact T4|exact L3|apply S'; [lia|exact L3]].
  f_equal.
  - exact (pick16 sh sp oob a c m Hs ltac:(lia) ltac:(auto) (proj1 T)).
  - apply IH; auto.
Qed.

(* ---------------- 32-bit right --------------------------------------------- *)
Lemma shrv32u_factor_spec oob y : counts y -> shrv32u_factor oob y = map (fun c => 2 ^ (31 - c)) y.
Proof.
  intros Hy. unfold shrv32u_factor. rewrite map_map. induction Hy as [|c y Hc Hy IH]; auto.
  cbn [map]. rewrite IH. f_equal. clear - Hc. rewrite vshl_in by lia. rewrite (Z.mod_small (c * 2 ^ 23)) by lia.
  rewrite Z.mod_small by lia. replace (1325400064 - c * 2 ^ 23) with ((31 - c + 127) * 2 ^ 23) by lia.
  apply cvttps_pow2. lia.
Qed.
Lemma mul_pow_div a c k : 0 <= c <= k -> a * 2 ^ (k - c) / 2 ^ k = a / 2 ^ c.
Proof.
  intros H. replace (2 ^ k) with (2 ^ c * 2 ^ (k - c)) by (rewrite <- Z.pow_add_r by lia; f_equal; lia).
  apply Z.div_mul_cancel_r; apply Z.pow_nonzero; lia.
Qed.
Lemma prod_ok a c : lane_ok 32 a -> 0 <= c < 32 -> lane_ok 63 (a * 2 ^ (31 - c)).
Proof.
  intros [H0 H] Hc. pose proof (Z.pow_pos_nonneg 2 (31 - c) ltac:(lia) ltac:(lia)).
  assert (2 ^ (31 - c) <= 2 ^ 31) by (apply Z.pow_le_mono_r; lia). unfold lane_ok.
  change (2 ^ 63) with (2 ^ 32 * 2 ^ 31). nia.
Qed.
Lemma factor_even a c : lane_ok 32 a -> 0 <= c < 32 -> psrl 64 31 (a * 2 ^ (31 - c)) mod 2 ^ 32 = a / 2 ^ c.
Proof.
  intros Ha Hc. unfold psrl. cbn [Z.ltb Z.compare Pos.compare Pos.compare_cont]. rewrite mul_pow_div by lia.
  apply Z.mod_small. apply lane_div; auto; lia.
Qed.
Lemma shrv32u_sse41_spec oob x y : length x = 4%nat -> length y = 4%nat -> reg_ok 32 x -> counts y ->
  shrv32u_sse41 oob x y = map2 cpp_shr_unsigned x y.
Proof.
  intros Hx Hy. destruct x as [|x0 [|x1 [|x2 [|x3 [|]]]]]; try discriminate. destruct y as [|y0 [|y1 [|y2 [|y3 [|]]]]]; try discriminate.
  intros Rx Ry. unfold shrv32u_sse41. rewrite shrv32u_factor_spec by auto. lanes. cbn [map cut blend_aa map2].
  assert (O : forall a c, lane_ok 32 a -> 0 <= c < 32 -> psll 64 1 (a * 2 ^ (31 - c)) / 2 ^ 32 = a / 2 ^ c).
  { intros a c Ha Hc. rewrite psll_in by lia. pose proof (prod_ok a c Ha Hc) as P. unfold lane_ok in P. rewrite Z.mod_small by lia.
    rewrite <- Z.mul_assoc. replace (2 ^ (31 - c) * 2 ^ 1) with (2 ^ (32 - c)); [apply mul_pow_div; lia|].
    rewrite <- Z.pow_add_r by lia. f_equal. lia. }
  rewrite !factor_even, !O by auto. auto.
Qed.
Lemma shrv32u_sse2_spec oob x y : length x = 4%nat -> length y = 4%nat -> reg_ok 32 x -> counts y ->
  shrv32u_sse2 oob x y = map2 cpp_shr_unsigned x y.
Proof.
  intros Hx Hy. destruct x as [|x0 [|x1 [|x2 [|x3 [|]]]]]; try discriminate. destruct y as [|y0 [|y1 [|y2 [|y3 [|]]]]]; try discriminate.
  intros Rx Ry. unfold shrv32u_sse2. rewrite shrv32u_factor_spec by auto. lanes. cbn [map cut map2 removelast].
  assert (O : forall a c, lane_ok 32 a -> 0 <= c < 32 -> psrl 64 31 (a * 2 ^ (31 - c)) / 2 ^ 32 = 0).
  { intros a c Ha Hc. unfold psrl. cbn [Z.ltb Z.compare Pos.compare Pos.compare_cont]. rewrite mul_pow_div by lia.
    apply Z.div_small. apply lane_div; auto; lia. }
  rewrite !factor_even, !O by auto. rewrite Z.lor_0_r, !Z.lor_0_l, Z.lor_0_r. auto.
Qed.
Lemma shrv32s_sse_spec b x y : length x = 4%nat -> length y = 4%nat -> reg_ok 32 x -> counts y ->
  shrv32s_sse b x y = map2 (cpp_shr_signed 32) x y.
Proof.
  intros Hx Hy. destruct x as [|x0 [|x1 [|x2 [|x3 [|]]]]]; try discriminate. destruct y as [|y0 [|y1 [|y2 [|y3 [|]]]]]; try discriminate.
  intros Rx Ry. lanes. unfold shrv32s_sse, psra_all. cbn [map nth skipn firstn app map2].
  rewrite !Z.mul_0_r, !Z.add_0_r. destruct b; rewrite !psra_spec by (auto; lia); reflexivity.
Qed.
