(* Proofs about the PowerPC shift operators. *)
From Coq Require Import ZArith List Bool Lia.
From Verif Require Import Prelude X86Lanes X86Bits X86ShiftSpec X86ShiftProofs PpcShift.
Import ListNotations.
Open Scope Z_scope.

Lemma map2_every sh x y r : r = map2 sh x y -> length y = length x -> every_lane sh x y r.
Proof.
  intros -> Hl. split; [rewrite map2_length; lia|]. revert y Hl.
  induction x as [|a x IH]; intros [|b y] Hl i Hi; simpl in *; try lia. destruct i; auto. apply IH; lia.
Qed.
Lemma map_every sh x n r : r = map (fun a => sh a n) x -> every_lane_by sh x n r.
Proof.
  intros ->. split; [apply map_length|]. intros i Hi. rewrite (nth_indep _ 0 (sh 0 n)) by (rewrite map_length; auto).
  exact (map_nth (fun a => sh a n) x 0 i).
Qed.
Lemma map2_flip_ext (f g : Z -> Z -> Z) (P Q : Z -> Prop) x y : Forall P x -> Forall Q y -> length y = length x ->
  (forall a c, P a -> Q c -> f c a = g a c) -> map2 f y x = map2 g x y.
Proof.
  intros Hx Hy Hl H. revert y Hy Hl. induction Hx; intros [|c y] Hy Hl; try discriminate; auto.
  inversion_clear Hy. injection Hl as Hl. cbn [map2]. rewrite IHHx by auto. f_equal. auto.
Qed.
Lemma map2_flip_map_ext (f g : Z -> Z -> Z) (h : Z -> Z) (P Q : Z -> Prop) x y : Forall P x -> Forall Q y -> length y = length x ->
  (forall a c, P a -> Q c -> f (h c) a = g a c) -> map2 f (map h y) x = map2 g x y.
Proof.
  intros Hx Hy Hl H. revert y Hy Hl. induction Hx; intros [|c y] Hy Hl; try discriminate; auto.
  inversion_clear Hy. injection Hl as Hl. cbn [map2 map]. rewrite IHHx by auto. f_equal. auto.
Qed.
Lemma mask_lt_map2 w f g (P Q : Z -> Prop) x y : Forall P x -> Forall Q y -> length y = length x ->
  (forall a c, P a -> Q c -> Z.land (if c <? w then 2 ^ w - 1 else 0) (f c a) = g a c) ->
  mask_lt w y (map2 f y x) = map2 g x y.
Proof.
  intros Hx Hy Hl H. unfold mask_lt. revert y Hy Hl. induction Hx; intros [|c y] Hy Hl; try discriminate; auto.
  inversion_clear Hy. injection Hl as Hl. cbn [map2]. rewrite IHHx by auto. f_equal. auto.
Qed.
Lemma land_ones_id w v : 0 <= w -> lane_ok w v -> Z.land (2 ^ w - 1) v = v.
Proof.
  intros Hw Hv. rewrite Z.land_comm. replace (2 ^ w - 1) with (Z.ones w) by (rewrite Z.ones_equiv; lia).
  rewrite Z.land_ones by auto. apply Z.mod_small. auto.
Qed.
(* counts of the promoted type: 0..31 for types up to int, 0..63 for 64 bits *)
Definition ppc_counts (w n : Z) : Prop := 0 <= n < Z.max w 32.
Lemma shrs_big w a k : 0 < w -> w - 1 <= k -> lane_ok w a -> cpp_shr_signed w a k = cpp_shr_signed w a (w - 1).
Proof.
  intros Hw Hk Ha. apply (lane_ext w); try (apply shrs_ok; lia). intros i Hi. rewrite !tb_shrs by (auto; lia).
  rewrite !Z.min_r by lia. auto.
Qed.
Lemma ppc_shlv_spec oob w x y : 0 < w -> reg_ok w x -> Forall (ppc_counts w) y -> length y = length x ->
  ppc_shlv oob w x y = map2 (cpp_shl w) x y.
Proof.
  intros Hw Hx Hy Hl. unfold ppc_shlv, base_shift. destruct (Z.ltb_spec w 32).
  - apply (mask_lt_map2 w _ _ _ _ _ _ Hx Hy Hl). intros a c Ha Hc. unfold vshl. destruct (Z.ltb_spec c w).
    + apply land_ones_id; [lia|apply lane_mod; lia].
    + rewrite Z.land_0_l. symmetry. apply shl_big; lia.
  - apply (map2_flip_ext _ _ _ _ _ _ Hx Hy Hl). intros a c Ha Hc. unfold ppc_counts in Hc. rewrite vshl_in by lia. auto.
Qed.
Lemma ppc_shl_spec oob w x n : 0 < w -> reg_ok w x -> ppc_counts w n -> ppc_shl oob w x n = map (fun a => cpp_shl w a n) x.
Proof.
  intros Hw Hx Hn. unfold ppc_shl, base_shift_n, ppc_counts in *. destruct (Z.ltb_spec w 32).
  - destruct (Z.leb_spec w n).
    + apply map_ext. intros a. symmetry. apply shl_big; lia.
    + apply map_ext. intros a. apply vshl_in; lia.
  - apply map_ext. intros a. apply vshl_in; lia.
Qed.
Lemma ppc_shrvu_spec oob w x y : 0 < w -> reg_ok w x -> Forall (ppc_counts w) y -> length y = length x ->
  ppc_shrv false oob w x y = map2 cpp_shr_unsigned x y.
Proof.
  intros Hw Hx Hy Hl. unfold ppc_shrv, base_shift. destruct (Z.ltb_spec w 32).
  - apply (mask_lt_map2 w _ _ _ _ _ _ Hx Hy Hl). intros a c Ha Hc. unfold ppc_counts in Hc. unfold vshr. destruct (Z.ltb_spec c w).
    + apply land_ones_id; [lia|apply lane_div; auto; lia].
    + rewrite Z.land_0_l. symmetry. apply (shru_big w); auto; lia.
  - apply (map2_flip_ext _ _ _ _ _ _ Hx Hy Hl). intros a c Ha Hc. unfold ppc_counts in Hc. rewrite vshr_in by lia. auto.
Qed.
Lemma ppc_shrvs_spec oob w x y : 0 < w -> reg_ok w x -> Forall (ppc_counts w) y -> length y = length x ->
  ppc_shrv true oob w x y = map2 (cpp_shr_signed w) x y.
Proof.
  intros Hw Hx Hy Hl. unfold ppc_shrv, base_shift. destruct (Z.ltb_spec w 32).
  - apply (map2_flip_map_ext _ _ _ _ _ _ _ Hx Hy Hl). intros a c Ha Hc. destruct (Z.leb_spec w c).
    + rewrite vsar_in by lia. symmetry. apply shrs_big; auto; lia.
    + apply vsar_in; auto.
  - apply (map2_flip_ext _ _ _ _ _ _ Hx Hy Hl). intros a c Ha Hc. unfold ppc_counts in Hc. rewrite vsar_in by lia. auto.
Qed.
Lemma ppc_shru_spec oob w x n : 0 < w -> reg_ok w x -> ppc_counts w n -> ppc_shr false oob w x n = map (fun a => cpp_shr_unsigned a n) x.
Proof.
  intros Hw Hx Hn. unfold ppc_shr, base_shift_n, ppc_counts in *.
  destruct (Z.ltb_spec w 32), (Z.leb_spec w n); cbn [andb]; try lia; apply map_ext_in; intros a Ha; try (apply vshr_in; lia).
  symmetry. unfold reg_ok in Hx. rewrite Forall_forall in Hx. apply (shru_big w); auto; lia.
Qed.
Lemma ppc_shrs_spec oob w x n : 0 < w -> reg_ok w x -> ppc_counts w n -> ppc_shr true oob w x n = map (fun a => cpp_shr_signed w a n) x.
Proof.
  intros Hw Hx Hn. unfold ppc_shr, base_shift_n, ppc_counts in *.
  destruct (Z.ltb_spec w 32), (Z.leb_spec w n); cbn [andb]; try lia; apply map_ext_in; intros a Ha; try (apply vsar_in; lia).
  rewrite vsar_in by lia. symmetry. unfold reg_ok in Hx. rewrite Forall_forall in Hx. apply shrs_big; auto; lia.
Qed.
