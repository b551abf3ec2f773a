(* __fold_input(simd<double>) for large numbers, rounding to nearest. *)
From Coq Require Import ZArith Reals QArith Qreals Lra Lia List Bool Psatz.
From Verif Require Import FloatSpec FloatRoundSpec FloatBits FloatArith FloatRound FloatProofs FloatArithProofs FloatRoundProofs Hypot HypotRound Narrow
  SinCosSpec SinCos SinCosProofs SinCosTop SinCosReal SinCosBound SinCosTaylor SinCosPoly SinCosFold SinCosFold64.
Import ListNotations.
Open Scope Z_scope.

Lemma fsub_int_rep f (U : usual f) x y n m : rep f x (IZR n) -> rep f y (IZR m) -> Z.abs (n - m) <= 2 ^ fp f ->
  rep f (fsub f ToNearest x y) (IZR (n - m)).
Proof.
  intros Rx Ry B. pose proof (us_ok f U) as Hf. pose proof (O_pos f U) as HO. apply (fneg_rep f U) in Ry. unfold fsub.
  destruct (rep_decode f _ _ Rx) as (s & a & Dx & Ex). destruct (rep_decode f _ _ Ry) as (s' & b & Dy & Ey).
  assert (Nx : num s a = n * one f) by (apply eq_IZR; rewrite mult_IZR, Ex; field; lra).
  assert (Ny : num s' b = - m * one f) by (apply eq_IZR; rewrite mult_IZR, opp_IZR, Ey; field; lra).
  assert (PE : 2 * 2 ^ mb f = 2 ^ fp f).
  { unfold mb. rewrite <- Z.pow_succ_r by (destruct Hf as [? _]; lia). f_equal. lia. }
  pose proof (repr_int f Hf (n - m) ltac:(lia)) as RP.
  unfold fadd. rewrite Dx, Dy, Nx, Ny. replace (n * one f + - m * one f) with ((n - m) * one f) by ring.
  match goal with |- rep f (fround f ToNearest ?zz _ 0) _ => set (z := zz) end.
  pose proof (fround_exact f Hf ToNearest z _ 0 _ ltac:(lia) (eq_sym (Z.mul_1_r _)) RP) as FE.
  apply (decode_rep f) in FE; [|apply (fround_pattern f Hf); lia].
  set (w := (n - m) * one f) in *.
  replace (num (if w =? 0 then z else w <? 0) (Z.abs w)) with w in FE.
  - unfold w in FE at 2. rewrite mult_IZR in FE. replace (IZR (n - m)) with (IZR (n - m) * IZR (one f) / IZR (one f))%R by (field; lra). exact FE.
  - destruct (Z.eqb_spec w 0) as [E|E]; [rewrite E; destruct z; reflexivity|]. destruct (Z.ltb_spec w 0); cbn [num]; lia.
Qed.

Lemma zero_low_val a : 0 <= a < 2 ^ 64 -> zero_low_bits a = a - a mod 2 ^ 26.
Proof.
  intros B. unfold zero_low_bits. replace (2 ^ 64 - 2 ^ 26) with (Z.shiftl (Z.ones 38) 26) by reflexivity.
  assert (E : a - a mod 2 ^ 26 = a / 2 ^ 26 * 2 ^ 26) by (pose proof (Z.div_mod a (2 ^ 26) ltac:(lia)); lia).
  rewrite E. rewrite <- Z.shiftr_div_pow2, <- Z.shiftl_mul_pow2 by lia. apply Z.bits_inj'. intros i Hi. rewrite Z.land_spec.
  destruct (Z.lt_ge_cases i 26) as [L|L].
  - rewrite !Z.shiftl_spec_low by lia. apply andb_false_r.
  - rewrite !Z.shiftl_spec, Z.shiftr_spec by lia. replace (i - 26 + 26) with i by lia.
    destruct (Z.lt_ge_cases i 64) as [L'|L'].
    + rewrite Z.ones_spec_low by lia. apply andb_true_r.
    + rewrite Z.ones_spec_high by lia. rewrite andb_false_r. symmetry. destruct (Z.eq_dec a 0) as [->|Na]; [apply Z.bits_0|].
      apply Z.bits_above_log2; try lia. apply Z.log2_lt_pow2; try lia. apply Z.lt_le_trans with (2 ^ 64); try lia. apply Z.pow_le_mono_r; lia.
Qed.
Lemma zero_low_rep y n : rep binary64 y (IZR n) -> 0 <= n < 2 ^ 31 ->
  exists h j l, n = h * 2 ^ j + l /\ 0 <= l < 16 /\ 0 <= j <= 4 /\ 0 <= h < 2 ^ 27 /\ rep binary64 (zero_low_bits y) (IZR (h * 2 ^ j)).
Proof.
  intros R B. pose proof (us_ok _ usual64) as Hf. pose proof (O_pos _ usual64) as HO.
  destruct (rep_decode _ _ _ R) as (s & m & D & E). pose proof (rep_pattern _ _ _ R) as PY.
  destruct (decode_fin _ Hf y s m PY D) as (a & Ha & Em & Ey).
  assert (Nm : num s m = n * one binary64) by (apply eq_IZR; rewrite mult_IZR, E; field; lra). clear E.
  assert (M0 : 0 <= m) by (subst m; apply (mag_nonneg _ Hf); lia).
  change (one binary64) with (2 ^ 1074) in *. change (inf_bits binary64) with (2047 * 2 ^ 52) in *.
  assert (P74 : 0 < 2 ^ 1074) by (apply Z.pow_pos_nonneg; lia).
  destruct (Z.eq_dec n 0) as [N0|N0].
  { (* zero of either sign *)
    assert (m0 : m = 0) by (destruct s; cbn [num] in Nm; lia). exists 0, 0, 0. repeat (split; [lia|]).
    assert (a0 : a = 0).
    { rewrite m0 in Em. unfold mag in Em. change (mb binary64) with 52 in Em. destruct (Z.ltb_spec a (2 ^ 52)); [lia|].
      pose proof (Z.mod_pos_bound a (2 ^ 52) ltac:(lia)). assert (0 <= a / 2 ^ 52 - 1) by (pose proof (Z.div_le_mono (2 ^ 52) a (2 ^ 52) ltac:(lia) ltac:(lia)) as DV; rewrite Z.div_same in DV by lia; lia).
      pose proof (Z.pow_pos_nonneg 2 (a / 2 ^ 52 - 1) ltac:(lia) ltac:(lia)). nia. }
    assert (Z0 : zero_low_bits y = y) by (rewrite Ey, a0; destruct s; vm_compute; reflexivity).
    rewrite Z0. rewrite N0 in R. exact R. }
  assert (S0 : s = false) by (destruct s; auto; cbn [num] in Nm; nia). rewrite S0 in *. cbn [num] in Nm.
  assert (Y : y = a) by (rewrite Ey; reflexivity). rewrite Y in *. clear Y Ey D S0.
  unfold mag in Em. change (mb binary64) with 52 in Em.
  assert (P0 : 2 ^ 52 < 2 ^ 1074) by (apply Z.pow_lt_mono_r; lia).
  destruct (Z.ltb_spec a (2 ^ 52)) as [L|L]; [nia|].
  pose proof (Z.div_mod a (2 ^ 52) ltac:(lia)) as DM. pose proof (Z.mod_pos_bound a (2 ^ 52) ltac:(lia)) as MB.
  set (e := a / 2 ^ 52) in *. set (g := a mod 2 ^ 52) in *.
  assert (He : 1 <= e < 2047) by lia.
  assert (zl : zero_low_bits a = e * 2 ^ 52 + (g - g mod 2 ^ 26)).
  { rewrite zero_low_val by lia. assert (a mod 2 ^ 26 = g mod 2 ^ 26); [|lia].
    rewrite DM. replace (2 ^ 52 * e + g) with (g + e * 2 ^ 26 * 2 ^ 26) by (change (2 ^ 52) with (2 ^ 26 * 2 ^ 26); ring). apply Z.mod_add. lia. }
  pose proof (Z.div_mod g (2 ^ 26) ltac:(lia)) as DG. pose proof (Z.mod_pos_bound g (2 ^ 26) ltac:(lia)) as MG.
  set (g1 := g / 2 ^ 26) in *. set (g0 := g mod 2 ^ 26) in *.
  assert (G1 : 0 <= g1 < 2 ^ 26) by lia.
  set (z := e * 2 ^ 52 + (g - g0)) in *.
  assert (Dz : decode binary64 z = DFin false ((2 ^ 26 + g1) * 2 ^ (26 + (e - 1)))).
  { replace z with (with_sign binary64 false z) by reflexivity. rewrite (decode_with_sign binary64 Hf); [|unfold z; change (inf_bits binary64) with (2047 * 2 ^ 52); lia].
    f_equal. unfold mag. change (mb binary64) with 52. destruct (Z.ltb_spec z (2 ^ 52)); [unfold z in *; lia|].
    replace z with (2 ^ 26 * g1 + e * 2 ^ 52) by (unfold z; lia). rewrite Z.mod_add, Z.div_add by lia. rewrite Z.mod_small, Z.div_small by lia.
    rewrite Z.pow_add_r by lia. change (2 ^ 52) with (2 ^ 26 * 2 ^ 26). rewrite Z.add_0_l. ring. }
  assert (Pz : pattern binary64 z) by (unfold pattern, z; change (2 ^ fw binary64) with (2 ^ 64); lia).
  apply (decode_rep binary64) in Dz; auto. cbn [num] in Dz. change (one binary64) with (2 ^ 1074) in Dz.
  rewrite zl.
  assert (EN : n * 2 ^ 1074 = ((2 ^ 26 + g1) * 2 ^ 26 + g0) * 2 ^ (e - 1)) by (rewrite <- Nm, Em; f_equal; change (2 ^ 52) with (2 ^ 26 * 2 ^ 26); lia).
  assert (EB : e <= 1053).
  { destruct (Z.le_gt_cases e 1053); auto. exfalso. assert (2 ^ 1105 <= 2 ^ 52 * 2 ^ (e - 1)) by (rewrite <- Z.pow_add_r by lia; apply Z.pow_le_mono_r; lia).
    assert (2 ^ 1105 = 2 ^ 31 * 2 ^ 1074) by (rewrite <- Z.pow_add_r; [reflexivity|lia|lia]).
    assert (2 ^ 52 * 2 ^ (e - 1) <= n * 2 ^ 1074). { rewrite EN. apply Z.mul_le_mono_nonneg_r; [apply Z.pow_nonneg; lia|]. change (2 ^ 52) with (2 ^ 26 * 2 ^ 26). lia. } nia. }
  clear Nm Em.
  destruct (Z.le_gt_cases 1049 e) as [EL|EL].
  - exists (2 ^ 26 + g1), (e - 1049). 
    assert (S1 : 2 ^ (26 + (e - 1)) = 2 ^ (e - 1049) * 2 ^ 1074) by (rewrite <- Z.pow_add_r by lia; f_equal; lia).
    assert (S2 : 2 ^ (e - 1) * 2 ^ 26 = 2 ^ (e - 1049) * 2 ^ 1074) by (rewrite <- !Z.pow_add_r by lia; f_equal; lia).
    exists (n - (2 ^ 26 + g1) * 2 ^ (e - 1049)).
    assert (P1 : 0 < 2 ^ (e - 1)) by (apply Z.pow_pos_nonneg; lia).
    assert (J : 2 ^ (e - 1049) <= 16) by (change 16 with (2 ^ 4); apply Z.pow_le_mono_r; lia).
    assert (LL : (n - (2 ^ 26 + g1) * 2 ^ (e - 1049)) * 2 ^ 1074 = g0 * 2 ^ (e - 1)).
    { rewrite Z.mul_sub_distr_r, EN. transitivity (((2 ^ 26 + g1) * 2 ^ 26 + g0) * 2 ^ (e - 1) - (2 ^ 26 + g1) * (2 ^ (e - 1) * 2 ^ 26)); [rewrite S2; ring|ring]. }
    set (l := n - (2 ^ 26 + g1) * 2 ^ (e - 1049)) in *. split; [unfold l; ring|]. split.
    + assert (g0 * 2 ^ (e - 1) < 2 ^ (e - 1049) * 2 ^ 1074) by (rewrite <- S2; nia). set (p := 2 ^ 1074) in *. set (q := 2 ^ (e - 1)) in *. set (r := 2 ^ (e - 1049)) in *. clearbody p q r l. clear - LL H P1 J P74 MG. split; nia.
    + split; [lia|]. split; [lia|]. replace (IZR ((2 ^ 26 + g1) * 2 ^ (e - 1049))) with (IZR ((2 ^ 26 + g1) * 2 ^ (26 + (e - 1))) / IZR (2 ^ 1074))%R; auto.
      rewrite S1, !mult_IZR. field. apply not_0_IZR. lia.
  - (* the number has no more than 27 digits *)
    assert (S1 : 2 ^ 1074 = 2 ^ 26 * 2 ^ (1049 - e) * 2 ^ (e - 1)) by (rewrite <- !Z.pow_add_r by lia; f_equal; lia).
    assert (P1 : 0 < 2 ^ (e - 1)) by (apply Z.pow_pos_nonneg; lia). assert (P2 : 1 <= 2 ^ (1049 - e)) by (pose proof (Z.pow_pos_nonneg 2 (1049 - e) ltac:(lia) ltac:(lia)); lia).
    assert (X : n * (2 ^ 26 * 2 ^ (1049 - e)) = (2 ^ 26 + g1) * 2 ^ 26 + g0).
    { apply (Z.mul_cancel_r _ _ (2 ^ (e - 1))); [lia|]. rewrite <- EN, S1. ring. }
    set (u := 2 ^ (1049 - e)) in *. clearbody u.
    assert (G0 : g0 = 0) by (set (w := n * u - (2 ^ 26 + g1)); assert (g0 = 2 ^ 26 * w) by (unfold w; lia); lia).
    assert (X' : n * u = 2 ^ 26 + g1) by lia.
    exists n, 0, 0. split; [lia|]. split; [lia|]. split; [lia|]. split; [split; [lia|nia]|].
    replace z with a; [rewrite Z.mul_1_r; exact R|unfold z; lia].
Qed.

Open Scope R_scope.
Local Notation b64 := binary64.
(* two subtractions, the larger number first *)
Lemma sub2_rep f (U : usual f) x p q v a b M N : rep f x v -> rep f p a -> rep f q b ->
  Rabs (v - a) <= M -> Rabs (v - b) <= M -> Rabs (v - a - b) <= N -> M + N <= 100 ->
  exists r, rep f (fsub f ToNearest (fsub f ToNearest x (fmax_lane f p q)) (fmin_lane f p q)) r /\ Rabs (r - (v - a - b)) <= ulp f * M + ulp f * N + ulp f * ulp f * 100 + 3 * tiny.
Proof.
  assert (G : forall x p q v a b, rep f x v -> rep f p a -> rep f q b -> Rabs (v - a) <= M -> Rabs (v - a - b) <= N -> M + N <= 100 ->
    exists r, rep f (fsub f ToNearest (fsub f ToNearest x p) q) r /\ Rabs (r - (v - a - b)) <= ulp f * M + ulp f * N + ulp f * ulp f * 100 + 3 * tiny).
  { clear x p q v a b. intros x p q v a b Rx Rp Rq BM BN L. pose proof (u_pos f U) as UP. pose proof tiny_val as TV. pose proof huge_val as HV.
    pose proof (Rabs_pos (v - a)). pose proof (Rabs_pos (v - a - b)).
    assert (U1 : ulp f <= / 2). { unfold ulp. apply Rinv_le_contravar; [lra|]. apply IZR_le. destruct (us_ok f U) as [? _]. change 2%Z with (2 ^ 1)%Z at 1. apply Z.pow_le_mono_r; lia. }
    destruct (fsub_rep f U x p v a Rx Rp ltac:(lra)) as (r & Rr & Er).
    assert (M1 : ulp f * Rabs (v - a) <= ulp f * M) by (apply Rmult_le_compat_l; lra).
    assert (B2 : Rabs (r - b) <= N + (ulp f * M + tiny)).
    { replace (r - b) with ((v - a - b) + (r - (v - a))) by ring. apply abs_plus; lra. }
    assert (MM : 0 <= ulp f * M <= / 2 * M) by (split; [apply Rmult_le_pos; lra|apply Rmult_le_compat_r; lra]).
    destruct (fsub_rep f U _ q r b Rr Rq ltac:(lra)) as (z & Rz & Ez). exists z. split; auto.
    assert (M2 : ulp f * Rabs (r - b) <= ulp f * (N + (ulp f * M + tiny))) by (apply Rmult_le_compat_l; lra).
    replace (z - (v - a - b)) with ((z - (r - b)) + (r - (v - a))) by ring.
    assert (M3 : ulp f * (ulp f * M) <= ulp f * ulp f * 100).
    { rewrite <- Rmult_assoc. apply Rmult_le_compat_l; [apply Rmult_le_pos; lra|lra]. }
    assert (M4 : ulp f * tiny <= / 2 * tiny) by (apply Rmult_le_compat_r; lra).
    eapply Rle_trans; [apply abs_plus; [exact Ez|exact Er]|]. lra. }
  intros Rx Rp Rq B1 B2 B3 L. destruct (max_min_rep f U p q a b Rp Rq) as [[X Y]|[X Y]].
  - apply (G x _ _ v a b); auto.
  - destruct (G x _ _ v b a Rx X Y B2 ltac:(replace (v - b - a) with (v - a - b) by ring; auto) L) as (r & Rr & Er). exists r. split; auto.
    replace (v - a - b) with (v - b - a) by ring. auto.
Qed.
Lemma exact_scaled f (U : usual f) y p n i m k : rep f y (IZR (n * 2 ^ i)) -> rep f p (IZR m / IZR (2 ^ k)) -> (0 <= i <= k)%Z -> (k <= unit f)%Z -> (Z.abs (n * m) <= 2 ^ fp f)%Z ->
  exists q, rep f (fmul f ToNearest y p) q /\ Rabs (q - IZR (n * 2 ^ i) * (IZR m / IZR (2 ^ k))) <= 0.
Proof.
  intros Ry Rp I K B. exists (IZR (n * 2 ^ i * m) / IZR (2 ^ k)). split; [apply (fmul_exact_scaled f U); auto|].
  rewrite mult_IZR. unfold Rdiv. rewrite Rmult_assoc. replace (_ - _) with 0 by ring. rewrite Rabs_R0. lra.
Qed.

Section Huge.
  Variable c : fusing.
  Variables (A y : Z) (v : R) (n : Z).
  Hypothesis RA : rep b64 A v.
  Hypothesis Ry : rep b64 y (IZR n).
  Hypothesis Nn : (0 <= n < 2 ^ 31)%Z.
  Hypothesis Bt : Rabs (v - IZR n * (PI / 2)) <= 0.78540.
  Lemma huge64 : v < 2147483648 ->
      let y_hi := zero_low_bits y in
      let y_lo := fsub b64 ToNearest y y_hi in
      let p1 := lit b64 false 0x1921FB5 (-24) in
      let p2 := lit b64 false 0x1110B46 (-50) in
      let p3 := lit b64 false 0x11A6263 (-78) in
      let p4 := lit b64 false 0x18A2E03707344A (-133) in
      let sub a b d := fsub b64 ToNearest (fsub b64 ToNearest a (fmax_lane b64 b d)) (fmin_lane b64 b d) in
      let a := sub_mul (fuse c 8) b64 ToNearest A y_hi p1 in
      let a := sub a (fmul b64 ToNearest y_hi p2) (fmul b64 ToNearest y_lo p1) in
      let a := sub a (fmul b64 ToNearest y_hi p3) (fmul b64 ToNearest y_lo p2) in
      exists e, Rabs e <= 100 / 9007199254740992 /\
      rep b64 (sub a (fmul b64 ToNearest y p4) (fmul b64 ToNearest y_lo p3)) (e + (v - IZR n * (PI / 2))).
  Proof.
    intros L. pose proof (n_bound v n Nn Bt L) as N. destruct (zero_low_rep y n Ry Nn) as (h & j & l & EN & Hl & Hj & Hh & Rh).
    pose proof pi_val as PV. pose proof tiny_val as TV. pose proof huge_val as HV. pose proof ulp64 as UL.
    cbv zeta. assert (Rl : rep b64 (fsub b64 ToNearest y (zero_low_bits y)) (IZR l)).
    { replace l with (n - h * 2 ^ j)%Z by lia. apply (fsub_int_rep b64 usual64); auto. change (2 ^ fp b64)%Z with 9007199254740992%Z. lia. }
    set (yh := zero_low_bits y) in *. set (yl := fsub b64 ToNearest y yh) in *. 
    set (k1 := 26353589 / 16777216). set (k2 := 17894214 / 1125899906842624). set (k3 := 18506339 / 302231454903657293676544).
    set (k4 := 6934483320648778 / 10889035741470030830827987437816582766592).
    assert (R1 : rep b64 (lit b64 false 0x1921FB5 (-24)) k1) by the_const false 0x1921FB5%Z 24%positive.
    assert (R2 : rep b64 (lit b64 false 0x1110B46 (-50)) k2) by the_const false 0x1110B46%Z 50%positive.
    assert (R3 : rep b64 (lit b64 false 0x11A6263 (-78)) k3) by the_const false 0x11A6263%Z 78%positive.
    assert (R4 : rep b64 (lit b64 false 0x18A2E03707344A (-133)) k4) by the_const false 0x18A2E03707344A%Z 133%positive.
    destruct (exact_scaled b64 usual64 yh _ h j 26353589 24 Rh R1 ltac:(lia) ltac:(lit_side) ltac:(change (2 ^ fp b64)%Z with 9007199254740992%Z; nia)) as (q1 & Rq1 & Eq1).
    destruct (exact_product b64 usual64 yl _ l 26353589 24 Rl R1 ltac:(lit_side) ltac:(change (2 ^ fp b64)%Z with 9007199254740992%Z; lia)) as (q2 & Rq2 & Eq2).
    change (26353589 / IZR (2 ^ 24)) with k1 in Eq1. change (26353589 / IZR (2 ^ 24)) with k1 in Eq2.
    set (H := IZR (h * 2 ^ j)) in *. set (l' := IZR l) in *.
    assert (NH : IZR n = H + l') by (rewrite EN, plus_IZR; reflexivity).
    assert (HR : - (1367130552) <= H <= 1367130552). { rewrite <- opp_IZR. unfold H. split; apply IZR_le; nia. }
    assert (LR : - (15) <= l' <= 15) by (rewrite <- opp_IZR; split; apply IZR_le; lia).
    assert (NR : - (1367130552) <= IZR n <= 1367130552) by (rewrite <- opp_IZR; split; apply IZR_le; lia).
    rewrite NH in Bt, NR. rewrite NH in Ry. rewrite NH. clear EN Hl Hj Hh N Nn. clearbody H l'.
    set (P := PI / 2) in *. set (t := v - (H + l') * P) in *. apply abs_range in Bt.
    assert (D0 : - (1.5708) <= P <= 1.5708) by (unfold P; lra).
    assert (D1 : - (16 / 1000000000) <= k1 - P <= 16 / 1000000000) by (unfold k1, P; lra).
    assert (D2 : - (63 / 1000000000000000000) <= k1 - P + k2 <= 63 / 1000000000000000000) by (unfold k1, k2, P; lra).
    assert (D3 : - (65 / 100000000000000000000000000) <= k1 - P + k2 + k3 <= 65 / 100000000000000000000000000) by (unfold k1, k2, k3, P; lra).
    assert (D4 : - / 100000000000000000000000000000 <= k1 - P + k2 + k3 + k4 <= / 100000000000000000000000000000) by (unfold k1, k2, k3, k4, P; lra).
    assert (E1 : - (1.5708) <= k1 <= 1.5708) by (unfold k1; lra).
    assert (E2 : - (16 / 1000000000) <= k2 <= 16 / 1000000000) by (unfold k2; lra).
    assert (E3 : - (63 / 1000000000000000000) <= k3 <= 63 / 1000000000000000000) by (unfold k3; lra).
    assert (E4 : - (65 / 100000000000000000000000000) <= k4 <= 65 / 100000000000000000000000000) by (unfold k4; lra).
    pose proof (prod_range _ _ _ _ LR D0) as L0. pose proof (prod_range _ _ _ _ HR D1) as H1. pose proof (prod_range _ _ _ _ HR D2) as H2. pose proof (prod_range _ _ _ _ HR D3) as H3.
    pose proof (prod_range _ _ _ _ LR D1) as L1. pose proof (prod_range _ _ _ _ LR D2) as L2. pose proof (prod_range _ _ _ _ NR D4) as N4.
    pose proof (prod_range _ _ _ _ HR E2) as He2. pose proof (prod_range _ _ _ _ HR E3) as He3. pose proof (prod_range _ _ _ _ NR E4) as Ne4.
    pose proof (prod_range _ _ _ _ LR E1) as Le1. pose proof (prod_range _ _ _ _ LR E2) as Le2. pose proof (prod_range _ _ _ _ LR E3) as Le3.
    clearbody k1 k2 k3 k4 P. clear D0 D1 D2 D3 D4 E1 E2 E3 E4 HR LR NR PV.
    (* the first difference *)
    destruct (sub_mul_rep b64 usual64 (fuse c 8) A yh _ v H k1 0 47 RA Rh R1 (ex_intro _ q1 (conj Rq1 Eq1))) as (r1 & Rr1 & Er1).
    { rewrite Rplus_0_r. apply abs_le_lr. replace (v - H * k1) with (t - H * (k1 - P) + l' * P) by (unfold t; ring). lra. }
    { lra. }
    rewrite UL in Er1. apply abs_range in Er1. set (e1 := r1 - (v - H * k1)) in *.
    destruct (rounded_product b64 usual64 yh _ H k2 22 Rh R2 ltac:(apply abs_le_lr; lra) ltac:(lra)) as (q3 & Rq3 & Eq3).
    rewrite UL in Eq3. apply abs_range in Eq2, Eq3. set (f2 := q2 - l' * k1) in *. set (f3 := q3 - H * k2) in *.
    destruct (sub2_rep b64 usual64 _ _ _ r1 q3 q2 25 0.78541 Rr1 Rq3 Rq2) as (r2 & Rr2 & Er2).
    { apply abs_le_lr. replace (r1 - q3) with (t - H * (k1 - P + k2) + l' * P + e1 - f3) by (unfold t, e1, f3; ring). lra. }
    { apply abs_le_lr. replace (r1 - q2) with (t - H * (k1 - P) - l' * (k1 - P) + e1 - f2) by (unfold t, e1, f2; ring). lra. }
    { apply abs_le_lr. replace (r1 - q3 - q2) with (t - H * (k1 - P + k2) - l' * (k1 - P) + e1 - f2 - f3) by (unfold t, e1, f2, f3; ring). lra. }
    { lra. }
    rewrite UL in Er2. apply abs_range in Er2. set (e2 := r2 - (r1 - q3 - q2)) in *.
    (* the second *)
    destruct (rounded_product b64 usual64 yh _ H k3 (/ 10000000) Rh R3 ltac:(apply abs_le_lr; lra) ltac:(lra)) as (q4 & Rq4 & Eq4).
    destruct (rounded_product b64 usual64 yl _ l' k2 (/ 1000000) Rl R2 ltac:(apply abs_le_lr; lra) ltac:(lra)) as (q5 & Rq5 & Eq5).
    rewrite UL in Eq4, Eq5. apply abs_range in Eq4, Eq5. set (f4 := q4 - H * k3) in *. set (f5 := q5 - l' * k2) in *.
    destruct (sub2_rep b64 usual64 _ _ _ r2 q4 q5 0.78541 0.78541 Rr2 Rq4 Rq5) as (r3 & Rr3 & Er3).
    { apply abs_le_lr. replace (r2 - q4) with (t - H * (k1 - P + k2 + k3) - l' * (k1 - P) + e1 - f2 - f3 + e2 - f4) by (unfold t, e1, e2, f2, f3, f4; ring). lra. }
    { apply abs_le_lr. replace (r2 - q5) with (t - H * (k1 - P + k2) - l' * (k1 - P + k2) + e1 - f2 - f3 + e2 - f5) by (unfold t, e1, e2, f2, f3, f5; ring). lra. }
    { apply abs_le_lr. replace (r2 - q4 - q5) with (t - H * (k1 - P + k2 + k3) - l' * (k1 - P + k2) + e1 - f2 - f3 + e2 - f4 - f5) by (unfold t, e1, e2, f2, f3, f4, f5; ring). lra. }
    { lra. }
    rewrite UL in Er3. apply abs_range in Er3. set (e3 := r3 - (r2 - q4 - q5)) in *.
    (* the third *)
    destruct (rounded_product b64 usual64 y _ (H + l') k4 (/ 100000000000000) Ry R4 ltac:(apply abs_le_lr; lra) ltac:(lra)) as (q6 & Rq6 & Eq6).
    destruct (rounded_product b64 usual64 yl _ l' k3 (/ 100000000000000) Rl R3 ltac:(apply abs_le_lr; lra) ltac:(lra)) as (q7 & Rq7 & Eq7).
    rewrite UL in Eq6, Eq7. apply abs_range in Eq6, Eq7. set (f6 := q6 - (H + l') * k4) in *. set (f7 := q7 - l' * k3) in *.
    destruct (sub2_rep b64 usual64 _ _ _ r3 q6 q7 0.78541 0.78541 Rr3 Rq6 Rq7) as (r4 & Rr4 & Er4).
    { apply abs_le_lr. replace (r3 - q6) with (t - H * (k1 - P + k2 + k3) - l' * (k1 - P + k2) + e1 - f2 - f3 + e2 - f4 - f5 + e3 - (H + l') * k4 - f6) by (unfold t, e1, e2, e3, f2, f3, f4, f5, f6; ring). lra. }
    { apply abs_le_lr. replace (r3 - q7) with (t - H * (k1 - P + k2 + k3) - l' * (k1 - P + k2) + e1 - f2 - f3 + e2 - f4 - f5 + e3 - l' * k3 - f7) by (unfold t, e1, e2, e3, f2, f3, f4, f5, f7; ring). lra. }
    { apply abs_le_lr. replace (r3 - q6 - q7) with (t - (H + l') * (k1 - P + k2 + k3 + k4) + e1 - f2 - f3 + e2 - f4 - f5 + e3 - f6 - f7) by (unfold t, e1, e2, e3, f2, f3, f4, f5, f6, f7; ring). lra. }
    { lra. }
    rewrite UL in Er4. apply abs_range in Er4. set (e4 := r4 - (r3 - q6 - q7)) in *.
    exists (r4 - t). split; [|replace (r4 - t + t) with r4 by ring; exact Rr4].
    replace (r4 - t) with (- ((H + l') * (k1 - P + k2 + k3 + k4)) + e1 - f2 - f3 + e2 - f4 - f5 + e3 - f6 - f7 + e4) by (unfold t, e1, e2, e3, e4, f2, f3, f4, f5, f6, f7; ring).
    apply abs_le_lr. lra.
  Qed.
End Huge.
