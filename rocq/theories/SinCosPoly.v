(* The polynomials of __cosSeries and __sinSeries: how far the computed value is
   from the polynomial, and the polynomial from the function, for arguments of at
   most 0.7855 in magnitude (a little more than pi / 4). *)
From Coq Require Import ZArith Reals Lra Lia List Bool Psatz.
From Verif Require Import FloatSpec FloatRoundSpec FloatBits FloatArith Hypot SinCos SinCosReal SinCosBound SinCosTaylor.
Import ListNotations.
Open Scope Z_scope.
Open Scope R_scope.

Definition quarter : Z := 7855 * 2 ^ 100 / 10000.
Definition bone : bound := {| bm := 2 ^ 100; be := 0 |}.
Definition bx : bound := {| bm := quarter; be := 0 |}.
(* the constant of a literal *)
Definition lv (s : bool) (m : Z) (k : positive) : R := IZR (num s m) / IZR (2 ^ Zpos k).

Lemma lit_one f : usual f -> apx f (lit f false 1 0) 1 bone.
Proof.
  intros U. apply (rep_apx f); [|unfold qv; pose proof c_pos; rewrite Rabs_pos_eq by lra; unfold Rdiv; rewrite Rinv_r; lra].
  pose proof (lit_rep f U false 2 1) as R. cbn [num] in R.
  replace (lit f false 1 0) with (lit f false 2 (-1)).
  - replace 1 with (2 / IZR (2 ^ 1)) by (change (IZR (2 ^ 1)) with 2; field). apply R.
    + destruct (us_ok f U) as [A _]. split; [lia|]. change 2%Z with (2 ^ 1)%Z at 1. apply Z.pow_le_mono_r; lia.
    + pose proof (us_unit f U). lia.
  - unfold lit. f_equal. f_equal. pose proof (us_unit f U). change 2%Z with (2 ^ 1)%Z at 1. rewrite <- Z.pow_add_r by lia.
    rewrite Z.mul_1_l. f_equal. lia.
Qed.

(* literals of float have one digit more than float, which is zero *)
Lemma lit_even f s m k : usual f -> (Zpos k + 1 <= unit f)%Z -> lit f s (2 * m) (- Zpos (k + 1)) = lit f s m (- Zpos k).
Proof.
  intros U K. unfold lit. assert (E : (2 * m * 2 ^ (unit f + - Zpos (k + 1)) = m * 2 ^ (unit f + - Zpos k))%Z); [|rewrite E; auto].
  replace (unit f + - Zpos k)%Z with (1 + (unit f + - Zpos (k + 1)))%Z by lia. rewrite (Z.pow_add_r 2 1) by lia. ring.
Qed.
Lemma lit_even_rep f s m k : usual f -> (0 <= m <= 2 ^ fp f)%Z -> (Zpos k + 1 <= unit f)%Z ->
  rep f (lit f s (2 * m) (- Zpos (k + 1))) (lv s (2 * m) (k + 1)).
Proof.
  intros U M K. rewrite lit_even by auto. unfold lv. replace (IZR (num s (2 * m)) / IZR (2 ^ Zpos (k + 1))) with (IZR (num s m) / IZR (2 ^ Zpos k)).
  - apply (lit_rep f U); auto. lia.
  - replace (num s (2 * m)) with (2 * num s m)%Z by (destruct s; cbn [num]; lia). rewrite Pos2Z.inj_add, Z.pow_add_r, !mult_IZR by lia.
    change (IZR (2 ^ 1)) with 2. pose proof (pow_split (Zpos k) ltac:(lia)). field. lra.
Qed.
Lemma lit_even_apx f s m k : usual f -> (0 <= m <= 2 ^ fp f)%Z -> (Zpos k + 1 <= unit f)%Z ->
  apx f (lit f s (2 * m) (- Zpos (k + 1))) (lv s (2 * m) (k + 1)) (blit (2 * m) (k + 1)).
Proof.
  intros U M K. pose proof (lit_even_rep f s m k U M K) as R. eexists. split; [exact R|]. unfold blit. cbn [bm be]. split.
  - replace (_ - _) with 0 by ring. rewrite Rabs_R0, qv_0. lra.
  - apply lit_mag. lia.
Qed.

Ltac lit_side := first [cbn; lia | vm_compute; split; discriminate | vm_compute; discriminate].
Ltac the_lit U s m k := exact (lit_apx _ U s m k ltac:(lit_side) ltac:(lit_side)).

Definition cos_poly64 (t : R) : R :=
  ((((((((lv false 0x1AC 53) * t - lv false 0x19394 53) * t + lv false 0x11EED8C 53) * t - lv false 0x127E4FB74 54) * t
    + lv false 0x1A01A01A018 56) * t - lv false 0x16C16C16C16C 54) * t + lv false 0x15555555555554 57) * t - lv false 1 1) * t + 1.
Definition sin_poly64 (t : R) : R :=
  ((((((lv true 0x1ACF 53) * t + lv false 0x161244 53) * t - lv false 0x1AE64567 54) * t + lv false 0x171DE3A554 55) * t
    - lv false 0x1A01A01A01A 53) * t + lv false 0x1111111111111 55) * t - lv false 0x15555555555555 55.
Definition cos_poly32 (t : R) : R :=
  ((lv false 0x1a 20 * t - lv false 0x16c1 22) * t + lv false 0x1555556 29) * (t * t) - lv false 1 1 * t + 1.
Definition sin_poly32 (t : R) : R :=
  (lv true 0x19CC 25 * t + lv false 0x11111 23) * t - lv false 0x1555556 27.

(* bounds along the code *)
Definition b2 f := bmul f bx bx.
Definition bcos64 : bound :=
  let f := binary64 in let x2 := b2 f in
  let y := blit 0x1AC 53 in
  let y := bfma f y x2 (blit 0x19394 53) in
  let y := bfma f y x2 (blit 0x11EED8C 53) in
  let y := bfma f y x2 (blit 0x127E4FB74 54) in
  let y := bfma f y x2 (blit 0x1A01A01A018 56) in
  let y := bfma f y x2 (blit 0x16C16C16C16C 54) in
  let y := bfma f y x2 (blit 0x15555555555554 57) in
  bfma f (bfma f y x2 (blit 1 1)) x2 bone.
Definition bsin64 : bound :=
  let f := binary64 in let x2 := b2 f in
  let y := blit 0x1ACF 53 in
  let y := bfma f y x2 (blit 0x161244 53) in
  let y := bfma f y x2 (blit 0x1AE64567 54) in
  let y := bfma f y x2 (blit 0x171DE3A554 55) in
  let y := bfma f y x2 (blit 0x1A01A01A01A 53) in
  let y := bfma f y x2 (blit 0x1111111111111 55) in
  let y := bfma f y x2 (blit 0x15555555555555 55) in
  bfma f y (bmul f x2 bx) bx.
Definition bsin32 : bound :=
  let f := binary32 in let x2 := b2 f in
  let y := blit 0x19CC 25 in
  let y := bfma f y x2 (blit 0x11111 23) in
  let y := bfma f y x2 (blit 0x1555556 27) in
  bfma f y (bmul f x2 bx) bx.
Definition bcos32 : bound :=
  let f := binary32 in let x2 := b2 f in
  let y := blit 0x1a 20 in
  let y := bfma f y x2 (blit 0x16c1 22) in
  let y := bfma f y x2 (blit 0x1555556 29) in
  badd f (bfms f y (bmul f x2 x2) (blit 1 1) x2) bone.

Lemma rep_bx f x v : rep f x v -> Rabs v <= qv quarter -> apx f x v bx.
Proof. intros. apply rep_apx; auto. Qed.
Ltac vmr := vm_compute; reflexivity.
Lemma cos_series64_apx c x v : rep binary64 x v -> Rabs v <= qv quarter -> apx binary64 (cos_series64 c ToNearest x) (cos_poly64 (v * v)) bcos64.
Proof.
  intros Hx B. pose proof (rep_bx _ _ _ Hx B) as A. pose proof usual64 as U.
  assert (A2 : apx binary64 (fmul binary64 ToNearest x x) (v * v) (b2 binary64)) by (unfold b2; exact (apx_mul _ U x x v v bx bx A A ltac:(vmr))).
  unfold cos_series64, cos_poly64, bcos64. cbv zeta.
  apply apx_mul_add; [exact U| |exact A2|exact (lit_one _ U)|vmr].
  apply apx_mul_sub; [exact U| |exact A2|the_lit U false 1%Z 1%positive|vmr].
  apply apx_mul_add; [exact U| |exact A2|the_lit U false 0x15555555555554%Z 57%positive|vmr].
  apply apx_mul_sub; [exact U| |exact A2|the_lit U false 0x16C16C16C16C%Z 54%positive|vmr].
  apply apx_mul_add; [exact U| |exact A2|the_lit U false 0x1A01A01A018%Z 56%positive|vmr].
  apply apx_mul_sub; [exact U| |exact A2|the_lit U false 0x127E4FB74%Z 54%positive|vmr].
  apply apx_mul_add; [exact U| |exact A2|the_lit U false 0x11EED8C%Z 53%positive|vmr].
  apply apx_mul_sub; [exact U|the_lit U false 0x1AC%Z 53%positive|exact A2|the_lit U false 0x19394%Z 53%positive|vmr].
Qed.
Lemma sin_series64_apx c x v : rep binary64 x v -> Rabs v <= qv quarter -> apx binary64 (sin_series64 c ToNearest x) (sin_poly64 (v * v) * (v * v * v) + v) bsin64.
Proof.
  intros Hx B. pose proof (rep_bx _ _ _ Hx B) as A. pose proof usual64 as U.
  assert (A2 : apx binary64 (fmul binary64 ToNearest x x) (v * v) (b2 binary64)) by (unfold b2; exact (apx_mul _ U x x v v bx bx A A ltac:(vmr))).
  unfold sin_series64, sin_poly64, bsin64. cbv zeta.
  apply apx_mul_add; [exact U| |apply apx_mul; [exact U|exact A2|exact A|vmr]|exact A|vmr].
  apply apx_mul_sub; [exact U| |exact A2|the_lit U false 0x15555555555555%Z 55%positive|vmr].
  apply apx_mul_add; [exact U| |exact A2|the_lit U false 0x1111111111111%Z 55%positive|vmr].
  apply apx_mul_sub; [exact U| |exact A2|the_lit U false 0x1A01A01A01A%Z 53%positive|vmr].
  apply apx_mul_add; [exact U| |exact A2|the_lit U false 0x171DE3A554%Z 55%positive|vmr].
  apply apx_mul_sub; [exact U| |exact A2|the_lit U false 0x1AE64567%Z 54%positive|vmr].
  apply apx_mul_add; [exact U|the_lit U true 0x1ACF%Z 53%positive|exact A2|the_lit U false 0x161244%Z 53%positive|vmr].
Qed.
Lemma sin_series32_apx c x v : rep binary32 x v -> Rabs v <= qv quarter -> apx binary32 (sin_series32 c ToNearest x) (sin_poly32 (v * v) * (v * v * v) + v) bsin32.
Proof.
  intros Hx B. pose proof (rep_bx _ _ _ Hx B) as A. pose proof usual32 as U.
  assert (A2 : apx binary32 (fmul binary32 ToNearest x x) (v * v) (b2 binary32)) by (unfold b2; exact (apx_mul _ U x x v v bx bx A A ltac:(vmr))).
  unfold sin_series32, sin_poly32, bsin32. cbv zeta.
  apply apx_mul_add; [exact U| |apply apx_mul; [exact U|exact A2|exact A|vmr]|exact A|vmr].
  apply apx_mul_sub; [exact U| |exact A2|exact (lit_even_apx _ false 0xAAAAAB 26 U ltac:(lit_side) ltac:(lit_side))|vmr].
  apply apx_mul_add; [exact U|the_lit U true 0x19CC%Z 25%positive|exact A2|the_lit U false 0x11111%Z 23%positive|vmr].
Qed.
Lemma cos_series32_apx c x v : rep binary32 x v -> Rabs v <= qv quarter -> apx binary32 (cos_series32 c ToNearest x) (cos_poly32 (v * v)) bcos32.
Proof.
  intros Hx B. pose proof (rep_bx _ _ _ Hx B) as A. pose proof usual32 as U.
  assert (A2 : apx binary32 (fmul binary32 ToNearest x x) (v * v) (b2 binary32)) by (unfold b2; exact (apx_mul _ U x x v v bx bx A A ltac:(vmr))).
  unfold cos_series32, cos_poly32, bcos32. cbv zeta.
  apply apx_add; [exact U| |exact (lit_one _ U)|vmr].
  apply apx_mul_sub_mul; [exact U| |apply apx_mul; [exact U|exact A2|exact A2|vmr]|the_lit U false 1%Z 1%positive|exact A2|vmr].
  apply apx_mul_add; [exact U| |exact A2|exact (lit_even_apx _ false 0xAAAAAB 28 U ltac:(lit_side) ltac:(lit_side))|vmr].
  apply apx_mul_sub; [exact U|the_lit U false 0x1a%Z 20%positive|exact A2|the_lit U false 0x16c1%Z 22%positive|vmr].
Qed.

(* the polynomials and the functions *)
Lemma abs_range x b : Rabs x <= b -> - b <= x <= b.
Proof. intros H. pose proof (Rle_abs x). pose proof (Rle_abs (- x)). rewrite Rabs_Ropp in *. lra. Qed.
Lemma quarter_val : qv quarter <= 0.7855.
Proof.
  unfold qv, quarter. pose proof c_pos as C. apply Rmult_le_reg_r with (IZR (2 ^ 100)); auto. unfold Rdiv at 1. rewrite Rmult_assoc, Rinv_l, Rmult_1_r by lra.
  pose proof (Z.div_mod (7855 * 2 ^ 100) 10000 ltac:(lia)) as D. pose proof (Z.mod_pos_bound (7855 * 2 ^ 100) 10000 ltac:(lia)) as B.
  set (q := (7855 * 2 ^ 100 / 10000)%Z) in *. assert (L : (10000 * q <= 7855 * 2 ^ 100)%Z) by lia. apply IZR_le in L. rewrite !mult_IZR in L. lra.
Qed.
Lemma square_range v : Rabs v <= qv quarter -> 0 <= v * v <= 0.61702.
Proof.
  intros B. pose proof quarter_val. assert (B' : Rabs v <= 0.7855) by lra. apply abs_range in B'. split; nra.
Qed.
Ltac pows t H :=
  assert (0 <= t ^ 2 <= 0.38072) by (cbn [pow]; nra);
  assert (0 <= t ^ 3 <= 0.23492) by (replace (t ^ 3) with (t * t ^ 2) by ring; nra);
  assert (0 <= t ^ 4 <= 0.14496) by (replace (t ^ 4) with (t * t ^ 3) by ring; nra);
  assert (0 <= t ^ 5 <= 0.08945) by (replace (t ^ 5) with (t * t ^ 4) by ring; nra);
  assert (0 <= t ^ 6 <= 0.0552) by (replace (t ^ 6) with (t * t ^ 5) by ring; nra);
  assert (0 <= t ^ 7 <= 0.0341) by (replace (t ^ 7) with (t * t ^ 6) by ring; nra);
  assert (0 <= t ^ 8 <= 0.0211) by (replace (t ^ 8) with (t * t ^ 7) by ring; nra);
  assert (0 <= t ^ 9 <= 0.0131) by (replace (t ^ 9) with (t * t ^ 8) by ring; nra).
Ltac constants :=
  cbn [num]; rewrite ?opp_IZR; repeat match goal with |- context [IZR (2 ^ ?k)] => let v := eval vm_compute in (2 ^ k)%Z in change (2 ^ k)%Z with v end.
Ltac facts := repeat match goal with |- context [zfact ?n] => let v := eval vm_compute in (zfact n) in change (zfact n) with v end.
Lemma cos_poly64_near v : Rabs v <= qv quarter -> Rabs (cos_poly64 (v * v) - cos v) <= / IZR (2 ^ 53).
Proof.
  intros B. pose proof (square_range v B) as T. pose proof quarter_val as QV. assert (B' : Rabs v <= 0.7855) by lra. apply abs_range in B'.
  pose proof (cos_taylor v 3 ltac:(lra)) as E. change (2 * (3 + 1))%nat with 8%nat in E. change (2 * 3 + 3)%nat with 9%nat in E.
  cbn [sum_f_R0] in E. rewrite !cos_term_val in E. revert E. cbn [Nat.mul Nat.add]. facts.
  set (t := v * v) in *. pows t T. intros E.
  unfold cos_poly64, lv. constants. apply abs_range in E. apply Rabs_le. cbn [pow] in *. lra.
Qed.
Lemma sin_poly64_pos v : 0 <= v <= 0.7855 -> Rabs (sin_poly64 (v * v) * (v * v * v) + v - sin v) <= / IZR (2 ^ 52).
Proof.
  intros B. assert (T : 0 <= v * v <= 0.61702) by (split; nra).
  pose proof (sin_taylor v 3 ltac:(lra)) as E. change (2 * (3 + 1))%nat with 8%nat in E. change (2 * 3 + 3)%nat with 9%nat in E.
  cbn [sum_f_R0] in E. rewrite !sin_term_val in E. rewrite <- !Rmult_plus_distr_l in E. revert E. cbn [Nat.mul Nat.add]. facts.
  set (t := v * v) in *. pows t T. intros E.
  match type of E with Rabs (_ - v * ?p) <= ?e => set (P := p) in *; set (F := e) in * end.
  assert (EF : F <= v * (1 / 100000000000000000)).
  { unfold F. clear E P. apply Rmult_le_compat_l; [lra|]; cbn [pow] in *; lra. }
  assert (D : Rabs (sin_poly64 t * t + 1 - P) <= / IZR (2 ^ 52) - 1 / 100000000000000000).
  { unfold sin_poly64, lv, P. clear E EF P F. constants. cbn [pow] in *. apply Rabs_le. lra. }
  replace (sin_poly64 t * (t * v) + v - sin v) with (v * (sin_poly64 t * t + 1 - P) - (sin v - v * P)) by ring.
  apply abs_range in D, E. apply Rabs_le. assert (0 < / IZR (2 ^ 52)) by (apply Rinv_0_lt_compat, IZR_lt; reflexivity).
  set (g := / IZR (2 ^ 52)) in *. set (X := sin_poly64 t * t + 1 - P) in *. clearbody X g. clearbody F P. assert (1 / 100000000000000000 <= g) by lra. split; nra.
Qed.
Lemma sin_poly32_pos v : 0 <= v <= 0.7855 -> Rabs (sin_poly32 (v * v) * (v * v * v) + v - sin v) <= / IZR (2 ^ 24).
Proof.
  intros B. assert (T : 0 <= v * v <= 0.61702) by (split; nra).
  pose proof (sin_taylor v 1 ltac:(lra)) as E. change (2 * (1 + 1))%nat with 4%nat in E. change (2 * 1 + 3)%nat with 5%nat in E.
  cbn [sum_f_R0] in E. rewrite !sin_term_val in E. rewrite <- !Rmult_plus_distr_l in E. revert E. cbn [Nat.mul Nat.add]. facts.
  set (t := v * v) in *. pows t T. intros E.
  match type of E with Rabs (_ - v * ?p) <= ?e => set (P := p) in *; set (F := e) in * end.
  assert (EF : F <= v * (1 / 400000000)).
  { unfold F. clear E P. apply Rmult_le_compat_l; [lra|]; cbn [pow] in *; lra. }
  assert (K : - 30 / 1000000000 <= t ^ 3 * (1 / 5040 - 0x19CC / 33554432) - t ^ 4 / 362880 <= 54 / 1000000000).
  { replace (t ^ 4) with (t * t ^ 3) by ring. assert (W : t ^ 3 = t * t * t) by ring. clear E EF P F. set (w := t ^ 3) in *. clearbody t.
    assert (C1 : t <= 0.2 \/ 0.2 <= t <= 0.35 \/ 0.35 <= t <= 0.42 \/ 0.42 <= t <= 0.5 \/ 0.5 <= t) by lra.
    destruct C1 as [c|[c|[c|[c|c]]]].
    - assert (w <= 0.008) by (rewrite W; nra). split; nra.
    - assert (w <= 0.043) by (rewrite W; assert (t * t <= 0.1225) by nra; nra). split; nra.
    - assert (w <= 0.0741) by (rewrite W; assert (t * t <= 0.1764) by nra; nra). split; nra.
    - assert (w <= 0.125) by (rewrite W; assert (t * t <= 0.25) by nra; nra). split; nra.
    - split; nra. }
  assert (D : Rabs (sin_poly32 t * t + 1 - P) <= 63 / 1000000000).
  { unfold sin_poly32, lv, P. clear E EF P F. constants. cbn [pow] in *. apply Rabs_le. lra. }
  replace (sin_poly32 t * (t * v) + v - sin v) with (v * (sin_poly32 t * t + 1 - P) - (sin v - v * P)) by ring.
  apply abs_range in D, E. apply Rabs_le. constants.
  set (X := sin_poly32 t * t + 1 - P) in *. clearbody X. clearbody F P. split; nra.
Qed.
Lemma odd_poly p v b : (forall u, 0 <= u <= 0.7855 -> Rabs (p (u * u) * (u * u * u) + u - sin u) <= b) ->
  Rabs v <= qv quarter -> Rabs (p (v * v) * (v * v * v) + v - sin v) <= b.
Proof.
  intros H B. pose proof quarter_val as QV. assert (B' : Rabs v <= 0.7855) by lra. apply abs_range in B'. destruct (Rle_or_lt 0 v) as [P|N].
  - apply H. lra.
  - specialize (H (- v) ltac:(lra)). rewrite sin_neg in H. rewrite <- Rabs_Ropp. replace (- v * - v) with (v * v) in H by ring.
    replace (- (p (v * v) * (v * v * v) + v - sin v)) with (p (v * v) * (v * v * - v) + - v - - sin v) by ring. exact H.
Qed.
Lemma sin_poly64_near v : Rabs v <= qv quarter -> Rabs (sin_poly64 (v * v) * (v * v * v) + v - sin v) <= / IZR (2 ^ 52).
Proof. apply odd_poly, sin_poly64_pos. Qed.
Lemma sin_poly32_near v : Rabs v <= qv quarter -> Rabs (sin_poly32 (v * v) * (v * v * v) + v - sin v) <= / IZR (2 ^ 24).
Proof. apply odd_poly, sin_poly32_pos. Qed.
Lemma cos_poly32_near v : Rabs v <= qv quarter -> Rabs (cos_poly32 (v * v) - cos v) <= / IZR (2 ^ 24).
Proof.
  intros B. pose proof (square_range v B) as T. pose proof quarter_val as QV. assert (B' : Rabs v <= 0.7855) by lra. apply abs_range in B'.
  pose proof (cos_taylor v 1 ltac:(lra)) as E. change (2 * (1 + 1))%nat with 4%nat in E. change (2 * 1 + 3)%nat with 5%nat in E.
  cbn [sum_f_R0] in E. rewrite !cos_term_val in E. revert E. cbn [Nat.mul Nat.add]. facts.
  set (t := v * v) in *. pows t T. intros E.
  unfold cos_poly32, lv. constants. apply abs_range in E. apply Rabs_le. cbn [pow] in *. lra.
Qed.
