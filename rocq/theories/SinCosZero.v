(* sin and cos of zero. *)
From Coq Require Import ZArith List Bool Lia.
From Verif Require Import Prelude X86Lanes Fixed FloatSpec FloatRoundSpec FloatBits FloatArith FloatRound FloatProofs FloatArithProofs
  FloatRoundProofs ScalarSpec Scalar NarrowSpec Narrow NarrowProofs Hypot SinCosSpec SinCos SinCosProofs SinCosTop.
Import ListNotations.
Open Scope Z_scope.

Definition zero f x : Prop := exists s, decode f x = DFin s 0.
Definition finite f x : Prop := exists s m, decode f x = DFin s m.

Section Format.
  Variable f : fmt.
  Hypothesis Hf : fmt_ok f.

  Lemma zero_bits_decode s : decode f (with_sign f s 0) = DFin s 0.
  Proof.
    pose proof (inf_pos f Hf). rewrite (decode_with_sign f Hf) by lia. f_equal. unfold mag.
    pose proof (pow_mb_pos f Hf). destruct (Z.ltb_spec 0 (2 ^ mb f)); auto; lia.
  Qed.
  Lemma num0 s : num s 0 = 0. Proof. destruct s; auto. Qed.
  Lemma zero_finite x : zero f x -> finite f x. Proof. intros [s E]. exists s, 0. auto. Qed.
  Lemma mul_zero_l md x y : zero f x -> finite f y -> zero f (fmul f md x y).
  Proof.
    intros [s E] (t & m & D). unfold fmul. rewrite E, D, num0. unfold fround. cbn [Z.mul Z.eqb].
    exists (xorb s t). apply zero_bits_decode.
  Qed.
  Lemma mul_zero_r md x y : finite f x -> zero f y -> zero f (fmul f md x y).
  Proof.
    intros (t & m & D) [s E]. unfold fmul. rewrite E, D, num0. unfold fround. rewrite Z.mul_0_r. cbn [Z.eqb].
    eexists. apply zero_bits_decode.
  Qed.
  Lemma neg_zero x : pattern f x -> zero f x -> zero f (fneg f x).
  Proof. intros P [s E]. exists (negb s). rewrite (decode_neg f Hf x P), E. auto. Qed.
  Lemma neg_finite x : pattern f x -> finite f x -> finite f (fneg f x).
  Proof. intros P (s & m & E). exists (negb s), m. rewrite (decode_neg f Hf x P), E. auto. Qed.
  (* the sign of a sum of zeros, the first of which is positive *)
  Definition pzero (md : rmode) x : Prop := exists s, decode f x = DFin s 0 /\ (md <> Downward -> s = false).
  Lemma pzero_zero md x : pzero md x -> zero f x. Proof. intros (s & E & _). exists s; auto. Qed.
  Lemma add_zeros md x y : pzero md x -> zero f y -> pzero md (fadd f md x y).
  Proof.
    intros (s & E & S) [t D]. unfold fadd. rewrite E, D, !num0. unfold fround. cbn [Z.add Z.eqb].
    eexists. split; [apply zero_bits_decode|]. intros N. rewrite (S N). destruct t; auto. destruct md; auto; congruence.
  Qed.
  Lemma add_zeros_r md x y : zero f x -> pzero md y -> pzero md (fadd f md x y).
  Proof.
    intros [t D] (s & E & S). unfold fadd. rewrite E, D, !num0. unfold fround. cbn [Z.add Z.eqb].
    eexists. split; [apply zero_bits_decode|]. intros N. rewrite (S N). destruct t; auto. destruct md; auto; congruence.
  Qed.
  Lemma fma_zeros md x y z : zero f x -> finite f y -> pzero md z -> pzero md (ffma f md x y z).
  Proof.
    intros [t D] (u & m & G) (s & E & S). unfold ffma. rewrite E, D, G, !num0. unfold fround. cbn [Z.add Z.mul Z.eqb].
    eexists. split; [apply zero_bits_decode|]. intros N. rewrite (S N). destruct (xorb t u); auto. destruct md; auto; congruence.
  Qed.
  Lemma fma_zeros_m md x y z : finite f x -> zero f y -> pzero md z -> pzero md (ffma f md x y z).
  Proof.
    intros (u & m & G) [t D] (s & E & S). unfold ffma. rewrite E, D, G, !num0, Z.mul_0_r. unfold fround. cbn [Z.add Z.mul Z.eqb].
    eexists. split; [apply zero_bits_decode|]. intros N. rewrite (S N). destruct (xorb u t); auto. destruct md; auto; congruence.
  Qed.
  Lemma submul_zeros c md x y z : pattern f y -> pzero md x -> zero f y -> finite f z -> pzero md (sub_mul c f md x y z).
  Proof.
    intros P X Y Z. unfold sub_mul. destruct c.
    - apply fma_zeros; auto. apply neg_zero; auto.
    - apply add_zeros; auto. apply neg_zero; [apply (mul_pattern f Hf)|]. apply mul_zero_l; auto.
  Qed.
  Lemma sub_zeros md x y : pattern f y -> pzero md x -> zero f y -> pzero md (fsub f md x y).
  Proof. intros. apply add_zeros; auto. apply neg_zero; auto. Qed.

  (* 0 + l = l *)
  Definition is x s m : Prop := decode f x = DFin s m /\ 0 < m.
  Lemma is_finite x s m : is x s m -> finite f x. Proof. intros [E _]. exists s, m. auto. Qed.
  Lemma exact_fin md z x s m k : 0 <= k -> pattern f x -> is x s m -> decode f (fround f md z (num s m * 2 ^ k) k) = DFin s m.
  Proof.
    intros K P [E M]. destruct (decode_fin f Hf x s m P E) as (a & A & -> & _).
    rewrite (fround_exact f Hf md z _ k (num s (mag f a))); auto.
    - assert (0 < 2 ^ k) by (apply Z.pow_pos_nonneg; lia).
      destruct (Z.eqb_spec (num s (mag f a) * 2 ^ k) 0) as [E0|E0]; [destruct s; cbn [num] in E0; nia|].
      destruct s; cbn [num]; [destruct (Z.eqb_spec (- mag f a) 0); [lia|]|destruct (Z.eqb_spec (mag f a) 0); [lia|]].
      + destruct (Z.ltb_spec (- mag f a) 0); [f_equal; lia|lia].
      + destruct (Z.ltb_spec (mag f a) 0); [lia|f_equal; lia].
    - apply repr_num, (repr_mag f Hf); auto.
  Qed.
  Lemma add_zero_l md x y s m : zero f x -> pattern f y -> is y s m -> is (fadd f md x y) s m.
  Proof.
    intros [t D] P E. destruct E as [E M]. unfold fadd. rewrite D, E, num0. split; auto. cbv zeta.
    replace (0 + num s m) with (num s m * 2 ^ 0) by (change (2 ^ 0) with 1; ring). eapply exact_fin; eauto; [lia|split; auto].
  Qed.
  Lemma fma_zero md x y z s m : finite f x -> zero f y -> pattern f z -> is z s m -> is (ffma f md x y z) s m.
  Proof.
    intros (u & k & G) [t D] P E. destruct E as [E M]. unfold ffma. rewrite G, D, E, num0. split; auto. cbv zeta.
    rewrite Z.mul_0_r, Z.add_0_l. eapply exact_fin; eauto; [apply (HuM f Hf)|split; auto].
  Qed.
  Lemma is_neg x s m : pattern f x -> is x s m -> is (fneg f x) (negb s) m.
  Proof. intros P [E M]. split; auto. rewrite (decode_neg f Hf x P), E. auto. Qed.
  Lemma muladd_is c md x y z s m : finite f x -> zero f y -> pattern f z -> is z s m -> is (mul_add c f md x y z) s m.
  Proof.
    intros. unfold mul_add. destruct c; [apply fma_zero; auto|]. apply add_zero_l; auto. apply mul_zero_r; auto.
  Qed.
  Lemma mulsub_is c md x y z s m : finite f x -> zero f y -> pattern f z -> is z s m -> is (mul_sub c f md x y z) (negb s) m.
  Proof.
    intros. pose proof (is_neg z s m ltac:(auto) ltac:(auto)). pose proof (fneg_pattern f Hf z ltac:(auto)).
    unfold mul_sub. destruct c; [apply fma_zero; auto|]. apply add_zero_l; auto. apply mul_zero_r; auto.
  Qed.
End Format.

(* a literal that is a number other than zero *)
Definition good f l : bool := (0 <=? l) && (l <? 2 ^ fw f) && match decode f l with DFin _ m => 0 <? m | _ => false end.
Lemma good_ok f l : good f l = true -> pattern f l /\ exists s m, is f l s m.
Proof.
  unfold good, pattern, is. intros H. apply andb_true_iff in H. destruct H as [H M]. apply andb_true_iff in H. destruct H as [L H].
  split; [lia|]. destruct (decode f l) as [|s|s m]; try discriminate. exists s, m. split; auto. lia.
Qed.
Lemma good_finite f l : good f l = true -> finite f l.
Proof. intros H. apply good_ok in H. destruct H as (_ & s & m & H). eapply is_finite; eauto. Qed.
Lemma muladd_finite f c md x y l : fmt_ok f -> finite f x -> zero f y -> good f l = true -> finite f (mul_add c f md x y l).
Proof. intros Hf X Y G. apply good_ok in G. destruct G as (P & s & m & I). eapply is_finite. apply (muladd_is f Hf); eauto. Qed.
Lemma mulsub_finite f c md x y l : fmt_ok f -> finite f x -> zero f y -> good f l = true -> finite f (mul_sub c f md x y l).
Proof. intros Hf X Y G. apply good_ok in G. destruct G as (P & s & m & I). eapply is_finite. apply (mulsub_is f Hf); eauto. Qed.
Ltac fin Hf Z2 := repeat lazymatch goal with
  | |- finite _ (mul_add _ _ _ _ _ _) => apply (muladd_finite _ _ _ _ _ _ Hf); [|exact Z2|vm_compute; reflexivity]
  | |- finite _ (mul_sub _ _ _ _ _ _) => apply (mulsub_finite _ _ _ _ _ _ Hf); [|exact Z2|vm_compute; reflexivity]
  | |- finite _ (lit _ _ _ _) => apply good_finite; vm_compute; reflexivity
  end.
Lemma one64 : is binary64 (lit binary64 false 1 0) false (one binary64) /\ pattern binary64 (lit binary64 false 1 0).
Proof. refine (conj (conj _ _) (conj _ _)); vm_compute; reflexivity || discriminate. Qed.
Lemma one32 : is binary32 (lit binary32 false 1 0) false (one binary32) /\ pattern binary32 (lit binary32 false 1 0).
Proof. refine (conj (conj _ _) (conj _ _)); vm_compute; reflexivity || discriminate. Qed.

Lemma cos_series64_zero c md x : zero binary64 x -> decode binary64 (cos_series64 c md x) = DFin false (one binary64).
Proof.
  intros Z. unfold cos_series64. cbv zeta. set (x2 := fmul binary64 md x x).
  assert (Z2 : zero binary64 x2) by (apply (mul_zero_l _ b64); auto; apply zero_finite; auto).
  destruct one64 as [I P]. refine (proj1 (muladd_is _ b64 _ _ _ _ _ _ _ _ Z2 P I)). fin b64 Z2.
Qed.
Lemma cos_series32_zero c md x : zero binary32 x -> decode binary32 (cos_series32 c md x) = DFin false (one binary32).
Proof.
  intros Z. unfold cos_series32. cbv zeta. set (x2 := fmul binary32 md x x).
  assert (Z2 : zero binary32 x2) by (apply (mul_zero_l _ b32); auto; apply zero_finite; auto).
  destruct one32 as [I P]. refine (proj1 (add_zero_l _ b32 _ _ _ _ _ _ P I)). set (y := mul_add _ _ _ _ _ _).
  assert (Y : finite binary32 y) by (unfold y; fin b32 Z2).
  assert (Z4 : zero binary32 (fmul binary32 md x2 x2)) by (apply (mul_zero_l _ b32); auto; apply zero_finite; auto).
  assert (ZA : forall a b, zero binary32 a -> zero binary32 b -> zero binary32 (fadd binary32 md a b)).
  { intros a b [s A] [t B]. unfold fadd. rewrite A, B, !num0. eexists. apply (zero_bits_decode _ b32). }
  assert (ZF : forall a b d, finite binary32 a -> zero binary32 b -> zero binary32 d -> zero binary32 (ffma binary32 md a b d)).
  { intros a b d (u & m & A) [t B] [s D]. unfold ffma. rewrite A, B, D, !num0, Z.mul_0_r. eexists. apply (zero_bits_decode _ b32). }
  assert (H : finite binary32 (lit binary32 false 1 (-1))) by (apply good_finite; vm_compute; reflexivity).
  assert (ZH : zero binary32 (fmul binary32 md (lit binary32 false 1 (-1)) x2)) by (apply (mul_zero_r _ b32); auto).
  assert (ZY : zero binary32 (fmul binary32 md y (fmul binary32 md x2 x2))) by (apply (mul_zero_r _ b32); auto).
  unfold mul_sub_mul. destruct (fuse2 c).
  - apply ZA; auto. apply (neg_zero _ b32); auto. apply (mul_pattern _ b32).
  - apply ZF; auto. apply (neg_zero _ b32); auto. apply (mul_pattern _ b32).
  - apply ZF; auto. apply (neg_finite _ b32); auto.
Qed.
Lemma sin_series64_zero c md x : pzero binary64 md x -> pzero binary64 md (sin_series64 c md x).
Proof.
  intros PZ. pose proof (pzero_zero _ _ _ PZ) as Z. unfold sin_series64. cbv zeta. set (x2 := fmul binary64 md x x).
  assert (Z2 : zero binary64 x2) by (apply (mul_zero_l _ b64); auto; apply zero_finite; auto).
  assert (Z3 : zero binary64 (fmul binary64 md x2 x)) by (apply (mul_zero_l _ b64); auto; apply zero_finite; auto).
  set (y := mul_sub _ _ _ _ _ _). assert (Y : finite binary64 y) by (unfold y; fin b64 Z2).
  unfold mul_add. destruct (fuse c 6).
  - apply (fma_zeros_m _ b64); auto.
  - apply (add_zeros_r _ b64); auto. apply (mul_zero_r _ b64); auto.
Qed.
Lemma sin_series32_zero c md x : pzero binary32 md x -> pzero binary32 md (sin_series32 c md x).
Proof.
  intros PZ. pose proof (pzero_zero _ _ _ PZ) as Z. unfold sin_series32. cbv zeta. set (x2 := fmul binary32 md x x).
  assert (Z2 : zero binary32 x2) by (apply (mul_zero_l _ b32); auto; apply zero_finite; auto).
  assert (Z3 : zero binary32 (fmul binary32 md x2 x)) by (apply (mul_zero_l _ b32); auto; apply zero_finite; auto).
  set (y := mul_sub _ _ _ _ _ _). assert (Y : finite binary32 y) by (unfold y; fin b32 Z2).
  unfold mul_add. destruct (fuse c 2).
  - apply (fma_zeros_m _ b32); auto.
  - apply (add_zeros_r _ b32); auto. apply (mul_zero_r _ b32); auto.
Qed.

Lemma zero_abs f x s : fmt_ok f -> pattern f x -> decode f x = DFin s 0 -> fabs_lane f x = 0.
Proof.
  intros Hf P E. pose proof (decode_fabs f Hf x) as D. rewrite E in D.
  eapply (decode_inj_fin f Hf); [apply (fabs_pattern f Hf)| |exact D|].
  - pose proof (fw_pos f Hf). split; [lia|apply Z.pow_pos_nonneg; lia].
  - change 0 with (with_sign f false 0) at 1. apply (zero_bits_decode f Hf).
Qed.
Lemma fold_y_zero md : fold_y md 0 = 0. Proof. destruct md; vm_compute; reflexivity. Qed.
Lemma to_int_zero64 ub : to_int ub binary64 0 = 0. Proof. vm_compute; reflexivity. Qed.
Lemma to_int_zero32 ub : to_int ub binary32 0 = 0. Proof. vm_compute; reflexivity. Qed.
Lemma zero0_64 : zero binary64 0. Proof. exists false. vm_compute. reflexivity. Qed.
Lemma pat0_64 : pattern binary64 0. Proof. split; [lia|vm_compute; reflexivity]. Qed.
Lemma zero0_32 : zero binary32 0. Proof. exists false. vm_compute. reflexivity. Qed.
Lemma pat0_32 : pattern binary32 0. Proof. split; [lia|vm_compute; reflexivity]. Qed.
Lemma fold64_zero c ub k md x s : pattern binary64 x -> decode binary64 x = DFin s 0 ->
  pzero binary64 md (fst (fold64 c ub k md x)) /\ snd (fold64 c ub k md x) = 0.
Proof.
  intros P E. unfold fold64. rewrite (zero_abs _ _ _ b64 P E), fold_y_zero, to_int_zero64.
  assert (PZ : pzero binary64 md 0) by (exists false; split; auto; vm_compute; reflexivity).
  pose proof zero0_64 as Z0. pose proof pat0_64 as P0.
  assert (SM : forall b a l, pzero binary64 md a -> good binary64 l = true -> pzero binary64 md (sub_mul b binary64 md a 0 l)).
  { intros. apply (submul_zeros _ b64); auto. apply good_finite; auto. }
  destruct k; cbv zeta; (split; [|reflexivity]); cbn [fst].
  - auto.
  - repeat (apply SM; [|vm_compute; reflexivity]). auto.
  - repeat (apply SM; [|vm_compute; reflexivity]). auto.
  - change (zero_low_bits 0) with 0. set (y_lo := fsub binary64 md 0 0).
    assert (YL : zero binary64 y_lo) by (apply (pzero_zero _ md); apply (sub_zeros _ b64); auto).
    assert (ML : forall y l, zero binary64 y -> good binary64 l = true -> zero binary64 (fmul binary64 md y l)).
    { intros. apply (mul_zero_l _ b64); auto. apply good_finite; auto. }
    assert (SS : forall a b d, pzero binary64 md a -> zero binary64 b -> zero binary64 d -> pattern binary64 b -> pattern binary64 d ->
      pzero binary64 md (fsub binary64 md (fsub binary64 md a (fmax_lane binary64 b d)) (fmin_lane binary64 b d))).
    { intros. apply (sub_zeros _ b64); [unfold fmin_lane; destruct (flt _ _ _); auto| |unfold fmin_lane; destruct (flt _ _ _); auto].
      apply (sub_zeros _ b64); [unfold fmax_lane; destruct (fgt _ _ _); auto|auto|unfold fmax_lane; destruct (fgt _ _ _); auto]. }
    apply SS; [|apply ML; [auto|vm_compute; reflexivity] ..|apply (mul_pattern _ b64)|apply (mul_pattern _ b64)].
    apply SS; [|apply ML; [auto|vm_compute; reflexivity] ..|apply (mul_pattern _ b64)|apply (mul_pattern _ b64)].
    apply SS; [|apply ML; [auto|vm_compute; reflexivity] ..|apply (mul_pattern _ b64)|apply (mul_pattern _ b64)].
    apply SM; [auto|vm_compute; reflexivity].
Qed.
Lemma narrow_zero md r s : decode binary64 r = DFin s 0 -> decode binary32 (fconv binary64 binary32 md r) = DFin s 0.
Proof. intros E. unfold fconv. rewrite E, num0. apply (zero_bits_decode _ b32). Qed.
Lemma fold32_zero c ub k md x s : pattern binary32 x -> decode binary32 x = DFin s 0 ->
  pzero binary32 md (fst (fold32 c ub k md x)) /\ snd (fold32 c ub k md x) = 0.
Proof.
  intros P E. unfold fold32. rewrite (zero_abs _ _ _ b32 P E).
  assert (PZ : pzero binary32 md 0) by (exists false; split; auto; vm_compute; reflexivity).
  assert (PD : pzero binary64 md 0) by (exists false; split; auto; vm_compute; reflexivity).
  destruct k; cbv zeta.
  - split; auto.
  - replace (fround_to_int binary32 md (fmul binary32 md 0 two_over_pi_f)) with 0 by (destruct md; vm_compute; reflexivity).
    rewrite to_int_zero32. split; [|reflexivity]. cbn [fst].
    assert (SM : forall b a l, pzero binary32 md a -> good binary32 l = true -> pzero binary32 md (sub_mul b binary32 md a 0 l)).
    { intros. apply (submul_zeros _ b32); auto; [apply pat0_32|apply zero0_32|apply good_finite; auto]. }
    repeat (apply SM; [|vm_compute; reflexivity]). auto.
  - replace (fconv binary32 binary64 md 0) with 0 by (destruct md; vm_compute; reflexivity).
    replace (fround_to_int binary64 md (fmul binary64 md 0 two_over_pi_d)) with 0 by (destruct md; vm_compute; reflexivity).
    rewrite to_int_zero64. split; [|reflexivity]. cbn [fst].
    destruct (submul_zeros _ b64 (fuse c 8) md 0 0 pi_2_d pat0_64 PD zero0_64) as (t & T & S); [apply good_finite; vm_compute; reflexivity|].
    exists t. split; auto. apply narrow_zero. auto.
Qed.

Lemma sin_lane_zero f md S C x p s : fmt_ok f -> pattern f x -> decode f x = DFin s 0 -> md <> Downward -> snd p = 0 ->
  pattern f (S (fst p)) -> pzero f md (S (fst p)) -> decode f (sin_lane f md S C x p) = DFin s 0.
Proof.
  intros Hf P E N Q PS (t & T & H). unfold sin_lane. rewrite Q. cbn [Z.land Z.eqb]. rewrite (sin_sign_val f Hf) by auto.
  rewrite (decode_xor f Hf) by auto. rewrite T, (H N). f_equal. pose proof (sign_datum f Hf x) as D. rewrite E in D. subst s.
  destruct (sign_of f x); auto.
Qed.
Lemma cos_lane_zero f md S C p : fmt_ok f -> snd p = 0 -> decode f (cos_lane f md S C p) = decode f (C (fst p)).
Proof.
  intros Hf Q. unfold cos_lane. rewrite Q. cbn [Z.land Z.eqb]. rewrite (cos_sign_val f Hf) by lia. reflexivity.
Qed.

Theorem zero_sin64 c ub md xs : Forall (pattern binary64) xs -> md <> Downward ->
  Forall2 (fun x r => forall s, decode binary64 x = DFin s 0 -> decode binary64 r = DFin s 0) xs (sin_reg64 c ub md xs).
Proof.
  intros P N. rewrite Forall_forall in P. rewrite sin_reg64_lanes. apply Forall2_map_in. intros x I s E.
  destruct (fold64_zero c ub (fold_test64 md xs) md x s (P x I) E) as [Z Q].
  apply (sin_lane_zero _ _ _ _ _ _ _ b64); auto; [apply sin_series64_pattern|apply sin_series64_zero; auto].
Qed.
Theorem zero_cos64 c ub md xs : Forall (pattern binary64) xs ->
  Forall2 (fun x r => forall s, decode binary64 x = DFin s 0 -> decode binary64 r = DFin false (one binary64)) xs (cos_reg64 c ub md xs).
Proof.
  intros P. rewrite Forall_forall in P. rewrite cos_reg64_lanes. apply Forall2_map_in. intros x I s E.
  destruct (fold64_zero c ub (fold_test64 md xs) md x s (P x I) E) as [Z Q].
  unfold cosl64. rewrite (cos_lane_zero _ _ _ _ _ b64 Q). apply cos_series64_zero. eapply pzero_zero; eauto.
Qed.
Lemma widen_zero md x s : pattern binary32 x -> decode binary32 x = DFin s 0 -> decode binary64 (fconv binary32 binary64 md x) = DFin s 0.
Proof. intros P E. destruct (fconv_included binary32 binary64 b32 b64 md x included_fd P) as [_ D]. rewrite D, E. reflexivity. Qed.
Lemma widen_pattern md xs ys : (forall x, In x xs -> pattern binary32 x) ->
  (forall y, In y ys -> exists x, In x xs /\ y = fconv binary32 binary64 md x) -> Forall (pattern binary64) ys.
Proof.
  intros P H. apply Forall_forall. intros y I. destruct (H y I) as (x & Ix & ->).
  apply (fconv_included binary32 binary64 b32 b64 md x included_fd). auto.
Qed.
Lemma narrow_one md r : decode binary64 r = DFin false (one binary64) -> decode binary32 (fconv binary64 binary32 md r) = DFin false (one binary32).
Proof. intros E. unfold fconv. rewrite E. destruct md; vm_compute; reflexivity. Qed.
Theorem zero_sin32 c ub md g xs : list_sum g = length xs -> Forall (pattern binary32) xs -> md <> Downward ->
  Forall2 (fun x r => forall s, decode binary32 x = DFin s 0 -> decode binary32 r = DFin s 0) xs (sin_reg32 c ub md g xs).
Proof.
  intros E P N. rewrite Forall_forall in P. unfold sin_reg32. match goal with |- _ _ _ (if ?b then _ else _) => destruct b end.
  - eapply in_double_lanes; [auto| |].
    + intros ys H. apply zero_sin64; auto. apply (widen_pattern md xs); auto.
    + cbv beta. intros x r I H s S. apply narrow_zero, H, widen_zero; auto.
  - rewrite sin_lanes32. apply Forall2_map_in. intros x I s S.
    destruct (fold32_zero c ub (fold_test32 xs) md x s (P x I) S) as [Z Q].
    apply (sin_lane_zero _ _ _ _ _ _ _ b32); auto; [apply sin_series32_pattern|apply sin_series32_zero; auto].
Qed.
Theorem zero_cos32 c ub md g xs : list_sum g = length xs -> Forall (pattern binary32) xs ->
  Forall2 (fun x r => forall s, decode binary32 x = DFin s 0 -> decode binary32 r = DFin false (one binary32)) xs (cos_reg32 c ub md g xs).
Proof.
  intros E P. rewrite Forall_forall in P. unfold cos_reg32. match goal with |- _ _ _ (if ?b then _ else _) => destruct b end.
  - eapply in_double_lanes; [auto| |].
    + intros ys H. apply zero_cos64; auto. apply (widen_pattern md xs); auto.
    + cbv beta. intros x r I H s S. apply narrow_one, (H s), widen_zero; auto.
  - rewrite cos_lanes32. apply Forall2_map_in. intros x I s S.
    destruct (fold32_zero c ub (fold_test32 xs) md x s (P x I) S) as [Z Q].
    unfold cosl32. rewrite (cos_lane_zero _ _ _ _ _ b32 Q). apply cos_series32_zero. eapply pzero_zero; eauto.
Qed.
