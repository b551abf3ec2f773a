(* sin and cos of vectors, rounding to nearest: every element is close to the sine
   or cosine. *)
From Coq Require Import ZArith Reals Lra Lia List Bool Psatz.
From Verif Require Import FloatSpec FloatRoundSpec FloatBits FloatArith FloatRound FloatProofs FloatArithProofs FloatRoundProofs Hypot HypotRound Narrow NarrowProofs
  SinCosSpec SinCosNearSpec SinCos SinCosProofs SinCosTop SinCosInt SinCosReal SinCosBound SinCosTaylor SinCosPoly SinCosFold SinCosFold64 SinCosNear.
Import ListNotations.
Open Scope Z_scope.
Open Scope R_scope.

Lemma num_mag f x s m : fmt_ok f -> pattern f x -> decode f x = DFin s m -> (0 <= m)%Z.
Proof. intros Hf P D. destruct (decode_fin f Hf x s m P D) as (n & Hn & Em & _). subst m. apply (mag_nonneg f Hf). lia. Qed.
Lemma real_abs f x s m : usual f -> pattern f x -> decode f x = DFin s m -> Rabs (real f s m) = IZR m / IZR (one f).
Proof.
  intros U P D. pose proof (num_mag f x s m (us_ok f U) P D) as M. pose proof (O_pos f U) as HO. unfold real.
  unfold Rdiv. rewrite Rabs_mult, (Rabs_pos_eq (/ _)) by (apply Rlt_le, Rinv_0_lt_compat; auto). f_equal.
  rewrite <- abs_IZR. f_equal. destruct s; cbn [num]; lia.
Qed.
Lemma less_real f x s m b : usual f -> pattern f x -> decode f x = DFin s m -> less f (decode f x) b -> Rabs (real f s m) < IZR b.
Proof.
  intros U P D L. rewrite D in L. cbn [less] in L. rewrite (real_abs f x s m U P D). pose proof (O_pos f U) as HO.
  apply IZR_lt in L. rewrite mult_IZR in L. apply Rmult_lt_reg_r with (IZR (one f)); auto. unfold Rdiv. rewrite Rmult_assoc, Rinv_l by lra. lra.
Qed.
Lemma rep_close f r v X e : rep f r v -> Rabs (v - X) <= e -> close f (decode f r) X e.
Proof. intros R E. destruct (rep_decode f _ _ R) as (s & m & D & ->). rewrite D. exact E. Qed.

Definition accurate (f : fmt) (F : R -> R) (e : R) (x r : Z) : Prop :=
  forall s m, decode f x = DFin s m -> less f (decode f x) (2 ^ 31) -> exists v, rep f r v /\ Rabs (v - F (real f s m)) <= e.
Lemma accurate_close f F e x r : accurate f F e x r -> forall s m, decode f x = DFin s m -> less f (decode f x) (2 ^ 31) -> close f (decode f r) (F (real f s m)) e.
Proof. intros A s m D L. destruct (A s m D L) as (v & R & E). eapply rep_close; eauto. Qed.
Lemma err64_max k : err64 k <= / IZR (2 ^ 46). Proof. destruct k; cbn [err64]; constants; lra. Qed.

Lemma accurate_cos64 c ub xs : Forall (pattern binary64) xs -> Forall2 (accurate binary64 cos (/ IZR (2 ^ 46))) xs (cos_reg64 c ub ToNearest xs).
Proof.
  intros P. rewrite Forall_forall in P. rewrite cos_reg64_lanes. apply Forall2_map_in. intros x I s m D L.
  pose proof (less_real _ _ _ _ _ usual64 (P x I) D L) as B.
  destruct (cosl64_near c ub _ x _ (decode_rep _ _ _ _ (P x I) D) B (fold_test64_ok ToNearest xs x I)) as (v & R & E).
  exists v. split; [exact R|]. pose proof (err64_max (fold_test64 ToNearest xs)). unfold real. lra.
Qed.
Lemma accurate_sin64 c ub xs : Forall (pattern binary64) xs -> Forall2 (accurate binary64 sin (/ IZR (2 ^ 46))) xs (sin_reg64 c ub ToNearest xs).
Proof.
  intros P. rewrite Forall_forall in P. rewrite sin_reg64_lanes. apply Forall2_map_in. intros x I s m D L.
  pose proof (less_real _ _ _ _ _ usual64 (P x I) D L) as B.
  destruct (sinl64_near c ub _ x _ (decode_rep _ _ _ _ (P x I) D) B (fold_test64_ok ToNearest xs x I)) as (v & R & E).
  exists v. split; [exact R|]. pose proof (err64_max (fold_test64 ToNearest xs)). unfold real. lra.
Qed.
(* all elements below 805 *)
Lemma small_test xs : Forall (pattern binary64) xs -> Forall (fun x => less binary64 (decode binary64 x) 805) xs ->
  fold_test64 ToNearest xs = Small64 \/ fold_test64 ToNearest xs = Medium64.
Proof.
  intros P L. rewrite Forall_forall in P, L. unfold fold_test64. cbv zeta. destruct (forallb (fun x => flt _ x pi_over_4_d) _); auto. right.
  set (b := forallb _ _). assert (B : b = true); [|rewrite B; reflexivity]. unfold b. apply forallb_forall. intros a I. apply in_map_iff in I. destruct I as (x & <- & I).
  assert (K : flt binary64 (fabs_lane binary64 x) pi_1025 = true); [|exact (eq_trans (f_equal (flt binary64 (fabs_lane binary64 x)) (eq_sym pi_1025_eq)) K)].
  pose proof (L x I) as LX. destruct (decode binary64 x) as [|s|s m] eqn:D; try contradiction. pose proof (P x I) as PX.
  pose proof (decode_rep _ _ _ _ PX D) as R. rewrite <- D in LX. pose proof (less_real _ _ _ _ _ usual64 PX D LX) as B.
  rewrite (flt_rep binary64 usual64 _ _ _ _ (fabs_rep binary64 usual64 _ _ PX R) pi_1025_rep). unfold real in B. lra.
Qed.
Lemma less_trans f d a b : fmt_ok f -> (a <= b)%Z -> less f d a -> less f d b.
Proof. intros Hf L. pose proof (one_pos f Hf). destruct d; cbn [less]; auto. nia. Qed.
Lemma accurate_cos64_small c ub xs : Forall (pattern binary64) xs -> Forall (fun x => less binary64 (decode binary64 x) 805) xs ->
  Forall2 (accurate binary64 cos (/ IZR (2 ^ 50))) xs (cos_reg64 c ub ToNearest xs).
Proof.
  intros P S. destruct (small_test xs P S) as [T|T]; rewrite Forall_forall in P; rewrite cos_reg64_lanes; apply Forall2_map_in; intros x I s m D L;
    pose proof (less_real _ _ _ _ _ usual64 (P x I) D L) as B; pose proof (fold_test64_ok ToNearest xs x I) as K; rewrite T in *;
    exact (cosl64_near c ub _ x _ (decode_rep _ _ _ _ (P x I) D) B K).
Qed.
Lemma accurate_sin64_small c ub xs : Forall (pattern binary64) xs -> Forall (fun x => less binary64 (decode binary64 x) 805) xs ->
  Forall2 (accurate binary64 sin (/ IZR (2 ^ 50))) xs (sin_reg64 c ub ToNearest xs).
Proof.
  intros P S. destruct (small_test xs P S) as [T|T]; rewrite Forall_forall in P; rewrite sin_reg64_lanes; apply Forall2_map_in; intros x I s m D L;
    pose proof (less_real _ _ _ _ _ usual64 (P x I) D L) as B; pose proof (fold_test64_ok ToNearest xs x I) as K; rewrite T in *;
    exact (sinl64_near c ub _ x _ (decode_rep _ _ _ _ (P x I) D) B K).
Qed.

(* float *)
Lemma int_rep f (U : usual f) n : (0 <= n <= 2 ^ fp f)%Z -> rep f (fof_int f ToNearest n) (IZR n).
Proof.
  intros B. pose proof (us_ok f U) as Hf. pose proof (O_pos f U) as HO. unfold fof_int.
  assert (PE : (2 * 2 ^ mb f = 2 ^ fp f)%Z). { unfold mb. rewrite <- Z.pow_succ_r by (destruct Hf as [? _]; lia). f_equal. lia. }
  pose proof (repr_int f Hf n ltac:(lia)) as RP.
  pose proof (fround_exact f Hf ToNearest false _ 0 _ ltac:(lia) (eq_sym (Z.mul_1_r _)) RP) as FE.
  apply (decode_rep f) in FE; [|apply (fround_pattern f Hf); lia]. unfold one in FE at 1. pose proof (one_pos f Hf).
  replace (num _ _) with (n * one f)%Z in FE.
  - rewrite mult_IZR in FE. replace (IZR n) with (IZR n * IZR (one f) / IZR (one f)) by (field; lra). exact FE.
  - destruct (Z.eqb_spec (n * one f) 0) as [E|E]; cbn [num]; [lia|]. destruct (Z.ltb_spec (n * one f) 0); cbn [num]; nia.
Qed.
Lemma not_fge f (U : usual f) x y a b : rep f x a -> rep f y b -> fge f x y = false -> a < b.
Proof.
  intros (_ & z & Ez & ->) (_ & w & Ew & ->) G. rewrite (fge_fin f x y z w) in G by auto. pose proof (O_pos f U) as HO. apply Z.leb_gt in G.
  apply Rmult_lt_compat_r; [apply Rinv_0_lt_compat; auto|]. apply IZR_lt; auto.
Qed.
Lemma below_test n xs x s m : (0 <= n <= 527449)%Z -> In x xs -> pattern binary32 x -> decode binary32 x = DFin s m ->
  existsb (fun x => fge binary32 (fabs_lane binary32 x) (fof_int binary32 ToNearest n)) xs = false -> Rabs (real binary32 s m) < 527449.
Proof.
  intros N I P D E. pose proof (not_exists _ xs x E I) as G. cbv beta in G.
  pose proof (not_fge binary32 usual32 _ _ _ _ (fabs_rep binary32 usual32 _ _ P (decode_rep _ _ _ _ P D)) (int_rep binary32 usual32 n ltac:(change (2 ^ fp binary32)%Z with 16777216%Z; lia)) G) as L.
  assert (IZR n <= 527449) by (apply IZR_le; lia). unfold real. lra.
Qed.
Lemma widen_less x s m : pattern binary32 x -> decode binary32 x = DFin s m -> less binary32 (decode binary32 x) (2 ^ 31) ->
  exists s' m', decode binary64 (fconv binary32 binary64 ToNearest x) = DFin s' m' /\ less binary64 (decode binary64 (fconv binary32 binary64 ToNearest x)) (2 ^ 31) /\
    real binary64 s' m' = real binary32 s m.
Proof.
  intros P D L. pose proof (widen_within ToNearest x P) as W. unfold within64 in W. rewrite D in *. specialize (W L).
  pose proof (widen_rep _ _ (decode_rep _ _ _ _ P D)) as R. destruct (rep_decode _ _ _ R) as (s' & m' & D' & E'). exists s', m'. rewrite D' in *. split; auto.
Qed.
Lemma narrow_close x r F e : pattern binary32 x -> (forall v, -1 <= F v <= 1) -> e <= / 1000000000 ->
  accurate binary64 F e (fconv binary32 binary64 ToNearest x) r -> accurate binary32 F (/ IZR (2 ^ 23)) x (fconv binary64 binary32 ToNearest r).
Proof.
  intros P B1 Le A s m D L. destruct (widen_less x s m P D L) as (s' & m' & D' & L' & E). destruct (A s' m' D' L') as (v & R & Ev). rewrite E in Ev.
  set (X := F (real binary32 s m)) in *. pose proof (B1 (real binary32 s m)) as BX. fold X in BX. clearbody X. apply abs_range in Ev.
  pose proof huge_val as HV. pose proof tiny_val as TV. pose proof ulp32 as UL.
  assert (BV : Rabs v <= 1.1) by (apply abs_le_lr; lra). destruct (narrow_rep r v R ltac:(lra)) as (w & Rw & Ew). exists w. split; auto.
  rewrite UL in Ew. assert (/ 16777216 * Rabs v <= / 16777216 * 1.1) by (apply Rmult_le_compat_l; lra). apply abs_range in Ew. apply abs_le_lr. constants. lra.
Qed.
Lemma accurate_weaken f F e d x r : e <= d -> accurate f F e x r -> accurate f F d x r.
Proof. intros L A s m D B. destruct (A s m D B) as (v & R & E). exists v. split; auto. lra. Qed.
Lemma widened_pattern xs ys : Forall (pattern binary32) xs ->
  (forall y, In y ys -> exists x, In x xs /\ y = fconv binary32 binary64 ToNearest x) -> Forall (pattern binary64) ys.
Proof.
  intros P W. rewrite Forall_forall in *. intros y I. destruct (W y I) as (x & J & ->).
  apply (fconv_included binary32 binary64 SinCosProofs.b32 SinCosProofs.b64 ToNearest x included_fd (P x J)).
Qed.
Lemma accurate_cos32 c ub g xs : list_sum g = length xs -> Forall (pattern binary32) xs -> Forall2 (accurate binary32 cos (/ IZR (2 ^ 21))) xs (cos_reg32 c ub ToNearest g xs).
Proof.
  intros G P. unfold cos_reg32. match goal with |- Forall2 _ _ (if ?b then _ else _) => destruct b eqn:T end.
  - apply (in_double_lanes (accurate binary64 cos (/ IZR (2 ^ 46)))); auto.
    + intros ys W. apply accurate_cos64. apply (widened_pattern xs); auto.
    + intros x r I A. apply (accurate_weaken _ _ (/ IZR (2 ^ 23))); [constants; lra|]. rewrite Forall_forall in P.
      apply (narrow_close x r cos (/ IZR (2 ^ 46)) (P x I) COS_bound); [constants; lra|auto].
  - rewrite cos_lanes32. rewrite Forall_forall in P. apply Forall2_map_in. intros x I s m D L.
    pose proof (below_test 393382 xs x s m ltac:(lia) I (P x I) D T) as B.
    exact (cosl32_near c ub _ x _ (decode_rep _ _ _ _ (P x I) D) B (fold_test32_ok xs x I)).
Qed.
Lemma accurate_sin32 c ub g xs : list_sum g = length xs -> Forall (pattern binary32) xs -> Forall2 (accurate binary32 sin (/ IZR (2 ^ 21))) xs (sin_reg32 c ub ToNearest g xs).
Proof.
  intros G P. unfold sin_reg32. match goal with |- Forall2 _ _ (if ?b then _ else _) => destruct b eqn:T end.
  - apply (in_double_lanes (accurate binary64 sin (/ IZR (2 ^ 46)))); auto.
    + intros ys W. apply accurate_sin64. apply (widened_pattern xs); auto.
    + intros x r I A. apply (accurate_weaken _ _ (/ IZR (2 ^ 23))); [constants; lra|]. rewrite Forall_forall in P.
      apply (narrow_close x r sin (/ IZR (2 ^ 46)) (P x I) SIN_bound); [constants; lra|auto].
  - rewrite sin_lanes32. rewrite Forall_forall in P. apply Forall2_map_in. intros x I s m D L.
    pose proof (below_test 527449 xs x s m ltac:(lia) I (P x I) D T) as B.
    exact (sinl32_near c ub _ x _ (decode_rep _ _ _ _ (P x I) D) B (fold_test32_ok xs x I)).
Qed.

Lemma closely_ok f F e xs rs : Forall2 (accurate f F e) xs rs -> closely f F e xs rs.
Proof. intros H. induction H; constructor; auto. intros s m D L. eapply accurate_close; eauto. Qed.
