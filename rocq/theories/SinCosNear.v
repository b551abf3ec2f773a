(* cos and sin of elements of double, rounding to nearest. *)
From Coq Require Import ZArith Reals QArith Qreals Lra Lia List Bool Psatz.
From Verif Require Import FloatSpec FloatRoundSpec FloatBits FloatArith FloatRound FloatProofs FloatArithProofs FloatRoundProofs Hypot HypotRound Narrow
  SinCosSpec SinCos SinCosProofs SinCosTop SinCosInt SinCosReal SinCosBound SinCosTaylor SinCosPoly SinCosFold SinCosFold64 SinCosHuge.
Import ListNotations.
Open Scope Z_scope.
Open Scope R_scope.

Definition pi_1025 : Z := fmul binary64 ToNearest (fof_int binary64 ToNearest 1025) pi_over_4_d.
Lemma pi_1025_eq : pi_1025 = fmul binary64 ToNearest (fof_int binary64 ToNearest 1025) pi_over_4_d. Proof. unfold pi_1025. reflexivity. Qed.
Lemma pi_1025_rep : rep binary64 pi_1025 (7081146187333155 / 8796093022208).
Proof.
  replace pi_1025 with (lit binary64 false 7081146187333155 (-43)) by (vm_compute; reflexivity).
  exact (lit_rep binary64 usual64 false 7081146187333155 43 ltac:(lit_side) ltac:(lit_side)).
Qed.
Lemma pi_4_rep : rep binary64 pi_over_4_d (7074237752028440 / 9007199254740992).
Proof. exact (lit_rep binary64 usual64 false 0x1921fb54442d18 53 ltac:(lit_side) ltac:(lit_side)). Qed.

Definition fold_err64 (k : fold_case64) : R :=
  match k with Small64 => 0 | Medium64 => 2.7 / 9007199254740992 | _ => 107 / 9007199254740992 end.
Lemma folded_weaken f p a e d : folded f p a e -> e <= d -> folded f p a d.
Proof. intros (n & v & N & Q & R & B & E) L. exists n, v. repeat (split; auto). lra. Qed.
Lemma fold64_near c ub k x u : rep binary64 x u -> Rabs u < 2147483648 -> lane_ok64 ToNearest k x ->
  folded binary64 (fold64 c ub k ToNearest x) (Rabs u) (fold_err64 k).
Proof.
  intros R B K. pose proof (fabs_rep binary64 usual64 x u (rep_pattern _ _ _ R) R) as RA. pose proof (Rabs_pos u) as U0.
  set (A := fabs_lane binary64 x) in *. set (v := Rabs u) in *.
  destruct (fold_y_rep A v RA U0 B) as (n & Ry & Nn & Bt). set (y := fold_y ToNearest A) in *.
  destruct k; unfold fold64, lane_ok64, fold_err64 in *; cbv zeta; fold A in K |- *; fold y in K |- *.
  - rewrite (flt_rep binary64 usual64 _ _ _ _ RA pi_4_rep) in K. exists 0%Z, v. cbn [fst snd]. pose proof quarter_lo.
    split; [lia|]. split; [reflexivity|]. split; auto. split; [rewrite Rabs_pos_eq; lra|]. replace (v - _) with 0 by ring. rewrite Rabs_R0. lra.
  - pose proof (eq_trans (f_equal (flt binary64 A) pi_1025_eq) K) as K'. clear K. rename K' into K. rewrite (flt_rep binary64 usual64 _ _ _ _ RA pi_1025_rep) in K.
    assert (N : (n <= 513)%Z).
    { pose proof pi_val as PV. apply abs_range in Bt. assert (N0 : 0 <= IZR n) by (apply IZR_le; lia).
      assert (IZR n * 1.57079632679 <= IZR n * (PI / 2)) by (apply Rmult_le_compat_l; lra).
      assert (X : IZR n < 514) by lra. apply lt_IZR in X. lia. }
    destruct (medium64 c A y v n RA Ry Nn Bt N) as (e & Ee & Re).
    eapply folded_weaken; [apply (finish ub y v n Ry Nn Bt _ e Re)|exact Ee]; lra.
  - destruct (large64 c A y v n RA Ry Nn Bt B) as (e & Ee & Re).
    eapply folded_weaken; [apply (finish ub y v n Ry Nn Bt _ e Re)|exact Ee]; lra.
  - destruct (huge64 c A y v n RA Ry Nn Bt B) as (e & Ee & Re).
    eapply folded_weaken; [apply (finish ub y v n Ry Nn Bt _ e Re)|]; lra.
Qed.

Definition err64 (k : fold_case64) : R := match k with Small64 | Medium64 => / IZR (2 ^ 50) | _ => / IZR (2 ^ 46) end.
Lemma err64_ok k : / IZR (2 ^ 51) + fold_err64 k <= err64 k.
Proof. destruct k; cbn [fold_err64 err64]; constants; lra. Qed.
Lemma cosl64_near c ub k x u : rep binary64 x u -> Rabs u < 2147483648 -> lane_ok64 ToNearest k x ->
  exists r, rep binary64 (cosl64 c ub ToNearest k x) r /\ Rabs (r - cos u) <= err64 k.
Proof.
  intros R B K. destruct (cos_lane_near binary64 _ _ _ _ _ _ usual64 (series64_ok c) (fold64_near c ub k x u R B K)) as (r & Rr & Er).
  exists r. split; [exact Rr|]. pose proof (err64_ok k). assert (CA : cos (Rabs u) = cos u) by (unfold Rabs; destruct (Rcase_abs u); rewrite ?cos_neg; auto).
  rewrite CA in Er. lra.
Qed.
Lemma sinl64_near c ub k x u : rep binary64 x u -> Rabs u < 2147483648 -> lane_ok64 ToNearest k x ->
  exists r, rep binary64 (sinl64 c ub ToNearest k x) r /\ Rabs (r - sin u) <= err64 k.
Proof.
  intros R B K. destruct (sin_lane_near binary64 _ _ x _ _ _ _ usual64 (series64_ok c) R (fold64_near c ub k x u R B K)) as (r & Rr & Er).
  exists r. split; [exact Rr|]. pose proof (err64_ok k). lra.
Qed.

(* ------------------------------------------------------------------ *)
(* float *)
Local Notation b32 := binary32.
Lemma pi_4_f_rep : rep b32 pi_over_4_f (13176795 / 16777216).
Proof.
  replace pi_over_4_f with (lit b32 false 13176795 (-24)) by (vm_compute; reflexivity).
  exact (lit_rep b32 usual32 false 13176795 24 ltac:(lit_side) ltac:(lit_side)).
Qed.
Definition pi_6 : Z := fmul b32 ToNearest (fof_int b32 ToNearest 6) pi_over_4_f.
Lemma pi_6_eq : pi_6 = fmul b32 ToNearest (fof_int b32 ToNearest 6) pi_over_4_f. Proof. unfold pi_6. reflexivity. Qed.
Lemma pi_6_rep : rep b32 pi_6 (9882596 / 2097152).
Proof.
  replace pi_6 with (lit b32 false 9882596 (-21)) by (vm_compute; reflexivity).
  exact (lit_rep b32 usual32 false 9882596 21 ltac:(lit_side) ltac:(lit_side)).
Qed.
Lemma two_pi_f_rep : rep b32 two_over_pi_f (10680707 / 16777216).
Proof.
  replace two_over_pi_f with (lit b32 false 10680707 (-24)) by (vm_compute; reflexivity).
  exact (lit_rep b32 usual32 false 10680707 24 ltac:(lit_side) ltac:(lit_side)).
Qed.
Lemma pi_hi_f_rep : rep b32 pi_2_hi_f (411775 / 262144).
Proof.
  replace pi_2_hi_f with (lit b32 false 411775 (-18)) by (vm_compute; reflexivity).
  exact (lit_rep b32 usual32 false 411775 18 ltac:(lit_side) ltac:(lit_side)).
Qed.
Lemma pi_lo_f_rep : rep b32 pi_2_lo_f (- 11254739 / 17592186044416).
Proof.
  replace pi_2_lo_f with (lit b32 true 11254739 (-44)) by (vm_compute; reflexivity).
  exact (lit_rep b32 usual32 true 11254739 44 ltac:(lit_side) ltac:(lit_side)).
Qed.
Lemma two_pi_d_rep : rep binary64 two_over_pi_d (5734161139222659 / 9007199254740992).
Proof. exact (lit_rep binary64 usual64 false 0x145F306DC9C883 53 ltac:(lit_side) ltac:(lit_side)). Qed.
Lemma pi_2_d_rep : rep binary64 pi_2_d (7074237752028440 / 4503599627370496).
Proof. exact (lit_rep binary64 usual64 false 0x1921fb54442d18 52 ltac:(lit_side) ltac:(lit_side)). Qed.

(* the nearest multiple of pi / 2, by a product *)
Lemma mul_y_rep f (U : usual f) a v p k N : rep f a v -> rep f p k -> 0 <= v <= N -> 3 <= N <= 600000 ->
  Rabs (k * (PI / 2) - 1) <= 0.7 * ulp f -> ulp f * N <= / 1000000 ->
  exists n, rep f (fround_to_int f ToNearest (fmul f ToNearest a p)) (IZR n) /\ (0 <= n < 2 ^ 31)%Z /\ Rabs (v - IZR n * (PI / 2)) <= 0.78540.
Proof.
  intros R Rp B HN EK UN. pose proof pi_val as PV. pose proof tiny_val as TV. pose proof huge_val as HV. pose proof (u_pos f U) as UP.
  set (P := PI / 2) in *. assert (PB : 1.570796326 <= P <= 1.570796327) by (unfold P; lra). clearbody P. apply abs_range in EK.
  set (d := k * P - 1) in *. assert (U1 : ulp f <= / 3000000) by nra.
  assert (KP : k * P = 1 + d) by (unfold d; ring). clearbody d.
  assert (KB : 0.636 <= k <= 0.637) by (split; nra).
  set (g := v * k). assert (G : 0 <= g <= 0.637 * N) by (unfold g; split; nra).
  assert (AG : Rabs g = g) by (apply Rabs_pos_eq; lra).
  destruct (fmul_rep f U a p v k R Rp ltac:(fold g; rewrite AG; lra)) as (q & Rq & Eq). fold g in Eq. rewrite AG in Eq. apply abs_range in Eq.
  destruct (nearbyint_rep f U _ q Rq) as (n & Rn & En). apply abs_range in En. exists n. split; auto.
  assert (UG : 0 <= ulp f * g <= 0.637 / 1000000).
  { split; [apply Rmult_le_pos; lra|]. assert (ulp f * g <= ulp f * (0.637 * N)) by (apply Rmult_le_compat_l; lra). lra. }
  assert (IN : - 1 < IZR n < 2147483648) by lra. split.
  { destruct IN as [I1 I2]. apply lt_IZR in I1. apply lt_IZR in I2. lia. }
  apply abs_le_lr.
  assert (VG : v = g * P - v * d) by (unfold g; transitivity (v * (k * P) - v * d); [rewrite KP; ring|ring]).
  assert (VD : - (0.7 / 1000000) <= v * d <= 0.7 / 1000000).
  { assert (UV : ulp f * v <= / 1000000) by (eapply Rle_trans; [|exact UN]; apply Rmult_le_compat_l; lra).
    assert (v * d <= v * (0.7 * ulp f)) by (apply Rmult_le_compat_l; lra). assert (v * - (0.7 * ulp f) <= v * d) by (apply Rmult_le_compat_l; lra). lra. }
  rewrite VG. set (w := v * d) in *. clearbody w. set (z := IZR n - g). replace (IZR n) with (g + z) in * by (unfold z; ring). clearbody z.
  assert (Z : - (/ 2 + 0.638 / 1000000) <= z <= / 2 + 0.638 / 1000000) by lra.
  replace (g * P - w - (g + z) * P) with (- (z * P) - w) by ring.
  pose proof (prod_range z P _ 1.570796327 Z ltac:(lra)). lra.
Qed.

Definition fold_err32 : R := 1.6 / 16777216.
Lemma fold32_near c ub k x u : rep b32 x u -> Rabs u < 527449 -> lane_ok32 k x ->
  folded b32 (fold32 c ub k ToNearest x) (Rabs u) fold_err32.
Proof.
  intros R B K. pose proof (fabs_rep b32 usual32 x u (rep_pattern _ _ _ R) R) as RA. pose proof (Rabs_pos u) as U0.
  set (A := fabs_lane b32 x) in *. set (v := Rabs u) in *. unfold fold_err32. pose proof pi_val as PV. pose proof tiny_val as TV. pose proof huge_val as HV.
  pose proof ulp32 as UL. pose proof ulp64 as UL'. pose proof quarter_lo as QL.
  destruct k; unfold fold32, lane_ok32 in *; cbv zeta; fold A in K |- *; fold A.
  - rewrite (flt_rep b32 usual32 _ _ _ _ RA pi_4_f_rep) in K. exists 0%Z, v. cbn [fst snd].
    split; [lia|]. split; [reflexivity|]. split; auto. split; [rewrite Rabs_pos_eq; lra|]. replace (v - _) with 0 by ring. rewrite Rabs_R0. lra.
  - pose proof (eq_trans (f_equal (flt b32 A) pi_6_eq) K) as K'. clear K. rename K' into K. rewrite (flt_rep b32 usual32 _ _ _ _ RA pi_6_rep) in K.
    destruct (mul_y_rep b32 usual32 A v _ _ 4.8 RA two_pi_f_rep ltac:(lra) ltac:(lra) ltac:(rewrite UL; apply abs_le_lr; lra) ltac:(rewrite UL; lra)) as (n & Ry & Nn & Bt).
    set (y := fround_to_int b32 ToNearest (fmul b32 ToNearest A two_over_pi_f)) in *. apply abs_range in Bt.
    assert (N : (n <= 3)%Z).
    { assert (N0 : 0 <= IZR n) by (apply IZR_le; lia). assert (IZR n * 1.57079632679 <= IZR n * (PI / 2)) by (apply Rmult_le_compat_l; lra).
      assert (X : IZR n < 4) by lra. apply lt_IZR in X. lia. }
    assert (NR : - (3) <= IZR n <= 3) by (rewrite <- opp_IZR; split; apply IZR_le; lia).
    set (k1 := 411775 / 262144). set (k2 := - 11254739 / 17592186044416). pose proof pi_hi_f_rep as R1. pose proof pi_lo_f_rep as R2. fold k1 in R1. fold k2 in R2.
    set (P := PI / 2) in *. set (t := v - IZR n * P) in *.
    assert (D1 : - (7 / 10000000) <= k1 - P <= 7 / 10000000) by (unfold k1, P; lra).
    assert (D2 : - (6 / 1000000000000000) <= k1 - P + k2 <= 6 / 1000000000000000) by (unfold k1, k2, P; lra).
    assert (E2 : - (7 / 10000000) <= k2 <= 7 / 10000000) by (unfold k2; lra).
    pose proof (prod_range _ _ _ _ NR D1) as N1. pose proof (prod_range _ _ _ _ NR D2) as N2. pose proof (prod_range _ _ _ _ NR E2) as N3.
    destruct (sub_mul_rep b32 usual32 (fuse c 8) A y _ v (IZR n) k1 0 0.78541 RA Ry R1) as (r1 & Rr1 & Er1).
    { apply (exact_product b32 usual32 y _ n 411775 18 Ry R1); [lit_side|]. change (2 ^ fp b32)%Z with 16777216%Z. lia. }
    { rewrite Rplus_0_r. apply abs_le_lr. replace (v - IZR n * k1) with (t - IZR n * (k1 - P)) by (unfold t; ring). lra. }
    { lra. }
    rewrite UL in Er1. apply abs_range in Er1. set (e1 := r1 - (v - IZR n * k1)) in *.
    destruct (rounded_product b32 usual32 y _ (IZR n) k2 (21 / 10000000) Ry R2 ltac:(apply abs_le_lr; lra) ltac:(lra)) as (q2 & Rq2 & Eq2).
    destruct (sub_mul_rep b32 usual32 (fuse c 9) _ y _ r1 (IZR n) k2 (/ 1000000000000) 0.78541 Rr1 Ry R2) as (r2 & Rr2 & Er2).
    { exists q2. split; auto. rewrite UL in Eq2. lra. }
    { assert (Rabs (r1 - IZR n * k2) <= 0.785401); [|lra]. apply abs_le_lr. replace (r1 - IZR n * k2) with (t - IZR n * (k1 - P + k2) + e1) by (unfold t, e1; ring). lra. }
    { lra. }
    rewrite UL in Er2. apply abs_range in Er2. set (e2 := r2 - (r1 - IZR n * k2)) in *.
    assert (ED : r2 - t = - (IZR n * (k1 - P + k2)) + e1 + e2) by (unfold t, e1, e2; ring).
    exists n, r2. cbn [fst snd]. split; [lia|]. split; [rewrite (to_int_rep b32 usual32 ub y n Ry ltac:(lia)); apply land3|]. split; [exact Rr2|]. split; apply abs_le_lr; fold P; fold t; lra.
  - pose proof (widen_rep _ _ RA) as RD. set (D := fconv b32 binary64 ToNearest A) in *.
    destruct (mul_y_rep binary64 usual64 D v _ _ 527449 RD two_pi_d_rep ltac:(lra) ltac:(lra) ltac:(rewrite UL'; apply abs_le_lr; lra) ltac:(rewrite UL'; lra)) as (n & Ry & Nn & Bt).
    set (y := fround_to_int binary64 ToNearest (fmul binary64 ToNearest D two_over_pi_d)) in *. apply abs_range in Bt.
    assert (N : (n <= 335785)%Z).
    { assert (N0 : 0 <= IZR n) by (apply IZR_le; lia). assert (IZR n * 1.57079632679 <= IZR n * (PI / 2)) by (apply Rmult_le_compat_l; lra).
      assert (X : IZR n < 335786) by lra. apply lt_IZR in X. lia. }
    assert (NR : - (335785) <= IZR n <= 335785) by (rewrite <- opp_IZR; split; apply IZR_le; lia).
    set (k1 := 7074237752028440 / 4503599627370496). pose proof pi_2_d_rep as R1. fold k1 in R1.
    set (P := PI / 2) in *. set (t := v - IZR n * P) in *.
    assert (D1 : - / 10000000000000000 <= k1 - P <= / 10000000000000000) by (unfold k1, P; lra).
    assert (E1 : - (1.6) <= k1 <= 1.6) by (unfold k1; lra).
    pose proof (prod_range _ _ _ _ NR D1) as N1. pose proof (prod_range _ _ _ _ NR E1) as N2.
    destruct (rounded_product binary64 usual64 y _ (IZR n) k1 540000 Ry R1 ltac:(apply abs_le_lr; lra) ltac:(lra)) as (q1 & Rq1 & Eq1).
    destruct (sub_mul_rep binary64 usual64 (fuse c 8) D y _ v (IZR n) k1 (/ 1000000000) 0.78541 RD Ry R1) as (r1 & Rr1 & Er1).
    { exists q1. split; auto. rewrite UL' in Eq1. lra. }
    { assert (Rabs (v - IZR n * k1) <= 0.785401); [|lra]. apply abs_le_lr. replace (v - IZR n * k1) with (t - IZR n * (k1 - P)) by (unfold t; ring). lra. }
    { lra. }
    rewrite UL' in Er1. apply abs_range in Er1. set (e1 := r1 - (v - IZR n * k1)) in *.
    assert (ED : r1 - t = - (IZR n * (k1 - P)) + e1) by (unfold t, e1; ring).
    assert (B1 : Rabs r1 <= 0.78541) by (apply abs_le_lr; lra).
    destruct (narrow_rep _ r1 Rr1 ltac:(lra)) as (r2 & Rr2 & Er2). rewrite UL in Er2. 
    assert (B2 : / 16777216 * Rabs r1 <= / 16777216 * 0.78541) by (apply Rmult_le_compat_l; lra). apply abs_range in Er2. apply abs_range in B1.
    exists n, r2. cbn [fst snd]. split; [lia|]. split; [rewrite (to_int_rep binary64 usual64 ub y n Ry ltac:(lia)); apply land3|]. split; [exact Rr2|]. split; apply abs_le_lr; fold P; fold t; lra.
Qed.
Lemma cosl32_near c ub k x u : rep b32 x u -> Rabs u < 527449 -> lane_ok32 k x ->
  exists r, rep b32 (cosl32 c ub ToNearest k x) r /\ Rabs (r - cos u) <= / IZR (2 ^ 21).
Proof.
  intros R B K. destruct (cos_lane_near b32 _ _ _ _ _ _ usual32 (series32_ok c) (fold32_near c ub k x u R B K)) as (r & Rr & Er).
  exists r. split; [exact Rr|]. assert (CA : cos (Rabs u) = cos u) by (unfold Rabs; destruct (Rcase_abs u); rewrite ?cos_neg; auto).
  rewrite CA in Er. unfold fold_err32 in Er. revert Er. constants. lra.
Qed.
Lemma sinl32_near c ub k x u : rep b32 x u -> Rabs u < 527449 -> lane_ok32 k x ->
  exists r, rep b32 (sinl32 c ub ToNearest k x) r /\ Rabs (r - sin u) <= / IZR (2 ^ 21).
Proof.
  intros R B K. destruct (sin_lane_near b32 _ _ x _ _ _ _ usual32 (series32_ok c) R (fold32_near c ub k x u R B K)) as (r & Rr & Er).
  exists r. split; [exact Rr|]. unfold fold_err32 in Er. revert Er. constants. lra.
Qed.
