(* __fold_input(simd<double>) on reals, rounding to nearest. *)
From Coq Require Import ZArith Reals QArith Qreals Lra Lia List Bool Psatz.
From Verif Require Import FloatSpec FloatRoundSpec FloatBits FloatArith FloatRound FloatProofs FloatArithProofs FloatRoundProofs Hypot HypotRound Narrow
  SinCosSpec SinCos SinCosProofs SinCosTop SinCosReal SinCosBound SinCosTaylor SinCosPoly SinCosFold.
Import ListNotations.
Open Scope Z_scope.
Open Scope R_scope.

Local Notation b64 := binary64.
Ltac the_const s m k := exact (lit_rep binary64 usual64 s m k ltac:(lit_side) ltac:(lit_side)).
Lemma abs_plus x a y b : Rabs x <= a -> Rabs y <= b -> Rabs (x + y) <= a + b.
Proof. intros. eapply Rle_trans; [apply Rabs_triang|]. lra. Qed.
Lemma quarter_lo : 0.78549 <= qv quarter.
Proof.
  unfold qv, quarter. pose proof c_pos as C. apply Rmult_le_reg_r with (IZR (2 ^ 100)); auto. unfold Rdiv at 1. rewrite Rmult_assoc, Rinv_l, Rmult_1_r by lra.
  pose proof (Z.div_mod (7855 * 2 ^ 100) 10000 ltac:(lia)) as D. pose proof (Z.mod_pos_bound (7855 * 2 ^ 100) 10000 ltac:(lia)) as B.
  set (q := (7855 * 2 ^ 100 / 10000)%Z) in *. assert (L : (7855 * 2 ^ 100 - 10000 <= 10000 * q)%Z) by lia. apply IZR_le in L. rewrite minus_IZR, !mult_IZR in L.
  assert (IZR (2 ^ 100) >= 1000000000000) by (apply Rle_ge, IZR_le; vm_compute; discriminate). lra.
Qed.

Section Fold.
  Variable c : fusing.
  Variable ub : Z -> Z.
  Variables (A y : Z) (v : R) (n : Z).
  Hypothesis RA : rep b64 A v.
  Hypothesis Ry : rep b64 y (IZR n).
  Hypothesis Nn : (0 <= n < 2 ^ 31)%Z.
  Hypothesis Bt : Rabs (v - IZR n * (PI / 2)) <= 0.78540.

  Lemma quad : Z.land (to_int ub b64 y) 3 = (n mod 4)%Z.
  Proof. rewrite (to_int_rep b64 usual64 ub y n Ry ltac:(lia)). apply land3. Qed.
  Lemma finish r e : rep b64 r (e + (v - IZR n * (PI / 2))) -> Rabs e <= 0.00001 -> folded b64 (r, Z.land (to_int ub b64 y) 3) v (Rabs e).
  Proof.
    intros R E. exists n, (e + (v - IZR n * (PI / 2))). cbn [fst snd]. rewrite quad. split; [lia|]. split; auto. split; auto. split.
    - pose proof quarter_lo. eapply Rle_trans; [apply Rabs_triang|]. lra.
    - replace (e + (v - IZR n * (PI / 2)) - (v - IZR n * (PI / 2))) with e by ring. lra.
  Qed.

  Lemma medium64 : (n <= 513)%Z ->
    let a := sub_mul (fuse c 8) b64 ToNearest A y (lit b64 false 0x1921FB54443 (-40)) in
    let a := sub_mul (fuse c 9) b64 ToNearest a y (lit b64 true 0x173DCB3B39A (-83)) in
    exists e, Rabs e <= 2.7 / 9007199254740992 /\
    rep b64 (sub_mul (fuse c 10) b64 ToNearest a y (lit b64 false 0x145C06E0E68948 (-138))) (e + (v - IZR n * (PI / 2))).
  Proof.
    intros N. pose proof pi_val as PV. pose proof tiny_val as TV. pose proof huge_val as HV. pose proof ulp64 as UL.
    assert (NR : 0 <= IZR n <= 513) by (split; apply IZR_le; lia).
    set (k1 := 1727108826179 / 1099511627776). set (k2 := -1597135631258 / 9671406556917033397649408).
    set (k3 := 5730684146977096 / 348449143727040986586495598010130648530944).
    assert (R1 : rep b64 (lit b64 false 0x1921FB54443 (-40)) k1) by the_const false 0x1921FB54443%Z 40%positive.
    assert (R2 : rep b64 (lit b64 true 0x173DCB3B39A (-83)) k2) by the_const true 0x173DCB3B39A%Z 83%positive.
    assert (R3 : rep b64 (lit b64 false 0x145C06E0E68948 (-138)) k3) by the_const false 0x145C06E0E68948%Z 138%positive.
    cbv zeta. set (P := PI / 2) in *. set (t := v - IZR n * P) in *.
    assert (D1 : - / 1000000000000 <= k1 - P <= / 1000000000000) by (unfold k1, P; lra).
    assert (D2 : - / 1000000000000000000000000 <= k1 - P + k2 <= / 1000000000000000000000000) by (unfold k1, k2, P; lra).
    assert (D3 : - / 100000000000000000000000000000 <= k1 - P + k2 + k3 <= / 100000000000000000000000000000) by (unfold k1, k2, k3, P; lra).
    assert (E2 : - / 1000000000000 <= k2 <= / 1000000000000) by (unfold k2; lra).
    assert (E3 : - / 100000000000000000000 <= k3 <= / 100000000000000000000) by (unfold k3; lra).
    pose proof (prod_range (IZR n) _ 513 _ ltac:(lra) D1) as ND1. pose proof (prod_range (IZR n) _ 513 _ ltac:(lra) D2) as ND2. pose proof (prod_range (IZR n) _ 513 _ ltac:(lra) D3) as ND3.
    pose proof (prod_range (IZR n) _ 513 _ ltac:(lra) E2) as NE2. pose proof (prod_range (IZR n) _ 513 _ ltac:(lra) E3) as NE3.
    apply abs_range in Bt. fold t in Bt.
    destruct (sub_mul_rep b64 usual64 (fuse c 8) A y _ v (IZR n) k1 0 0.78541 RA Ry R1) as (r1 & Rr1 & Er1).
    { apply (exact_product b64 usual64 y _ n 1727108826179 40 Ry R1); [lit_side|]. change (2 ^ fp b64)%Z with 9007199254740992%Z. lia. }
    { rewrite Rplus_0_r. apply abs_le_lr. replace (v - IZR n * k1) with (t - IZR n * (k1 - P)) by (unfold t; ring). lra. }
    { lra. }
    rewrite UL in Er1. apply abs_range in Er1. set (e1 := r1 - (v - IZR n * k1)) in *.
    destruct (rounded_product b64 usual64 y _ (IZR n) k2 (/ 1000000000) Ry R2 ltac:(apply abs_le_lr; lra) ltac:(lra)) as (q2 & Rq2 & Eq2).
    destruct (sub_mul_rep b64 usual64 (fuse c 9) _ y _ r1 (IZR n) k2 (/ 10000000000000000000) 0.78541 Rr1 Ry R2) as (r2 & Rr2 & Er2).
    { exists q2. split; auto. rewrite UL in Eq2. lra. }
    { assert (Rabs (r1 - IZR n * k2) <= 0.785401); [|lra]. apply abs_le_lr. replace (r1 - IZR n * k2) with (t - IZR n * (k1 - P + k2) + e1) by (unfold t, e1; ring). lra. }
    { lra. }
    rewrite UL in Er2. apply abs_range in Er2. set (e2 := r2 - (r1 - IZR n * k2)) in *.
    destruct (rounded_product b64 usual64 y _ (IZR n) k3 (/ 100000000000000000) Ry R3 ltac:(apply abs_le_lr; lra) ltac:(lra)) as (q3 & Rq3 & Eq3).
    destruct (sub_mul_rep b64 usual64 (fuse c 10) _ y _ r2 (IZR n) k3 (/ 10000000000000000000000) 0.78541 Rr2 Ry R3) as (r3 & Rr3 & Er3).
    { exists q3. split; auto. rewrite UL in Eq3. lra. }
    { assert (Rabs (r2 - IZR n * k3) <= 0.785401); [|lra]. apply abs_le_lr. replace (r2 - IZR n * k3) with (t - IZR n * (k1 - P + k2 + k3) + e1 + e2) by (unfold t, e1, e2; ring). lra. }
    { lra. }
    rewrite UL in Er3. apply abs_range in Er3. set (e3 := r3 - (r2 - IZR n * k3)) in *.
    exists (r3 - t). split; [|replace (r3 - t + t) with r3 by ring; auto].
    replace (r3 - t) with (- (IZR n * (k1 - P + k2 + k3)) + e1 + e2 + e3) by (unfold t, e1, e2, e3; ring). apply abs_le_lr. lra.
  Qed.

  Lemma n_bound : v < 2147483648 -> (n <= 1367130552)%Z.
  Proof.
    intros L. pose proof pi_val as PV. apply abs_range in Bt. assert (N0 : 0 <= IZR n) by (apply IZR_le; lia).
    assert (IZR n * 1.57079632679 <= IZR n * (PI / 2)) by (apply Rmult_le_compat_l; lra).
    assert (X : IZR n < 1367130553) by lra. apply lt_IZR in X. lia.
  Qed.
  Lemma large64 : v < 2147483648 ->
    let a := sub_mul (fuse c 8) b64 ToNearest A y (lit b64 false 0x1921FB4 (-24)) in
    let a := sub_mul (fuse c 9) b64 ToNearest a y (lit b64 false 0x14442D (-44)) in
    exists e, Rabs e <= 107 / 9007199254740992 /\
    rep b64 (sub_mul (fuse c 10) b64 ToNearest a y (lit b64 false 0x18469898CC517 (-96))) (e + (v - IZR n * (PI / 2))).
  Proof.
    intros L. pose proof (n_bound L) as N. pose proof pi_val as PV. pose proof tiny_val as TV. pose proof huge_val as HV. pose proof ulp64 as UL.
    assert (NR : 0 <= IZR n <= 1367130552) by (split; apply IZR_le; lia).
    set (k1 := 26353588 / 16777216). set (k2 := 1328173 / 17592186044416).
    set (k3 := 427063790847255 / 79228162514264337593543950336).
    assert (R1 : rep b64 (lit b64 false 0x1921FB4 (-24)) k1) by the_const false 0x1921FB4%Z 24%positive.
    assert (R1' : rep b64 (lit b64 false 0x1921FB4 (-24)) (6588397 / 4194304)) by (replace (6588397 / 4194304) with k1 by (unfold k1; field); exact R1).
    assert (R2 : rep b64 (lit b64 false 0x14442D (-44)) k2) by the_const false 0x14442D%Z 44%positive.
    assert (R3 : rep b64 (lit b64 false 0x18469898CC517 (-96)) k3) by the_const false 0x18469898CC517%Z 96%positive.
    cbv zeta. set (P := PI / 2) in *. set (t := v - IZR n * P) in *.
    assert (D1 : - (755 / 10000000000) <= k1 - P <= 755 / 10000000000) by (unfold k1, P; lra).
    assert (D2 : - (6 / 1000000000000000) <= k1 - P + k2 <= 6 / 1000000000000000) by (unfold k1, k2, P; lra).
    assert (D3 : - / 100000000000000000000000000000 <= k1 - P + k2 + k3 <= / 100000000000000000000000000000) by (unfold k1, k2, k3, P; lra).
    assert (E3 : - (6 / 1000000000000000) <= k3 <= 6 / 1000000000000000) by (unfold k3; lra).
    pose proof (prod_range (IZR n) _ 1367130552 _ ltac:(lra) D1) as ND1. pose proof (prod_range (IZR n) _ 1367130552 _ ltac:(lra) D2) as ND2.
    pose proof (prod_range (IZR n) _ 1367130552 _ ltac:(lra) D3) as ND3. pose proof (prod_range (IZR n) _ 1367130552 _ ltac:(lra) E3) as NE3.
    apply abs_range in Bt. fold t in Bt.
    destruct (sub_mul_rep b64 usual64 (fuse c 8) A y _ v (IZR n) k1 0 104.1 RA Ry R1) as (r1 & Rr1 & Er1).
    { replace k1 with (6588397 / 4194304) by (unfold k1; field).
      apply (exact_product b64 usual64 y _ n 6588397 22 Ry R1'); [lit_side|]. change (2 ^ fp b64)%Z with 9007199254740992%Z. lia. }
    { rewrite Rplus_0_r. apply abs_le_lr. replace (v - IZR n * k1) with (t - IZR n * (k1 - P)) by (unfold t; ring). lra. }
    { lra. }
    rewrite UL in Er1. apply abs_range in Er1. set (e1 := r1 - (v - IZR n * k1)) in *.
    destruct (sub_mul_rep b64 usual64 (fuse c 9) _ y _ r1 (IZR n) k2 0 0.78542 Rr1 Ry R2) as (r2 & Rr2 & Er2).
    { apply (exact_product b64 usual64 y _ n 1328173 44 Ry R2); [lit_side|]. change (2 ^ fp b64)%Z with 9007199254740992%Z. lia. }
    { rewrite Rplus_0_r. apply abs_le_lr. replace (r1 - IZR n * k2) with (t - IZR n * (k1 - P + k2) + e1) by (unfold t, e1; ring). lra. }
    { lra. }
    rewrite UL in Er2. apply abs_range in Er2. set (e2 := r2 - (r1 - IZR n * k2)) in *.
    destruct (rounded_product b64 usual64 y _ (IZR n) k3 (/ 100000) Ry R3 ltac:(apply abs_le_lr; lra) ltac:(lra)) as (q3 & Rq3 & Eq3).
    destruct (sub_mul_rep b64 usual64 (fuse c 10) _ y _ r2 (IZR n) k3 (/ 100000000000000000000) 0.78542 Rr2 Ry R3) as (r3 & Rr3 & Er3).
    { exists q3. split; auto. rewrite UL in Eq3. lra. }
    { assert (Rabs (r2 - IZR n * k3) <= 0.785401); [|lra]. apply abs_le_lr. replace (r2 - IZR n * k3) with (t - IZR n * (k1 - P + k2 + k3) + e1 + e2) by (unfold t, e1, e2; ring). lra. }
    { lra. }
    rewrite UL in Er3. apply abs_range in Er3. set (e3 := r3 - (r2 - IZR n * k3)) in *.
    exists (r3 - t). split; [|replace (r3 - t + t) with r3 by ring; auto].
    replace (r3 - t) with (- (IZR n * (k1 - P + k2 + k3)) + e1 + e2 + e3) by (unfold t, e1, e2, e3; ring). apply abs_le_lr. lra.
  Qed.
End Fold.
