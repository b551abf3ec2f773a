(* __fold_input on reals, rounding to nearest: the quadrant and how far the folded
   number is from the argument less a multiple of pi / 2. *)
From Coq Require Import ZArith Reals QArith Qreals Lra Lia List Bool Psatz.
From Verif Require Import FloatSpec FloatRoundSpec FloatBits FloatArith FloatRound FloatProofs FloatArithProofs FloatRoundProofs Hypot HypotRound Narrow
  SinCosSpec SinCos SinCosProofs SinCosTop SinCosReal SinCosBound SinCosTaylor SinCosPoly.
Import ListNotations.
Open Scope Z_scope.
Open Scope R_scope.

(* the series *)
Definition series_ok (f : fmt) (S C : Z -> Z) (e : R) : Prop :=
  forall x v, rep f x v -> Rabs v <= qv quarter ->
    (exists r, rep f (S x) r /\ Rabs (r - sin v) <= e) /\ (exists r, rep f (C x) r /\ Rabs (r - cos v) <= e).
Lemma inv_qv k : (0 <= k <= 100)%Z -> / IZR (2 ^ k) = qv (2 ^ (100 - k)).
Proof.
  intros K. unfold qv. assert (E : (2 ^ 100 = 2 ^ (100 - k) * 2 ^ k)%Z) by (rewrite <- Z.pow_add_r by lia; f_equal; lia).
  rewrite E, mult_IZR. pose proof (pow_split (100 - k) ltac:(lia)). pose proof (pow_split k ltac:(lia)). field. split; lra.
Qed.
Lemma apx_near f x X F b k j : apx f x X b -> Rabs (X - F) <= / IZR (2 ^ k) -> (0 <= k <= 100)%Z -> (0 <= j <= 100)%Z ->
  (be b + 2 ^ (100 - k) <=? 2 ^ (100 - j))%Z = true -> exists r, rep f x r /\ Rabs (r - F) <= / IZR (2 ^ j).
Proof.
  intros (v & R & E & _) N K J L. exists v. split; auto. apply Z.leb_le in L. apply qv_le in L. rewrite qv_plus in L.
  rewrite inv_qv in * by auto. replace (v - F) with ((v - X) + (X - F)) by ring. eapply Rle_trans; [apply Rabs_triang|]. lra.
Qed.
Lemma series64_ok c : series_ok binary64 (sin_series64 c ToNearest) (cos_series64 c ToNearest) (/ IZR (2 ^ 51)).
Proof.
  intros x v R B. split.
  - apply (apx_near _ _ _ _ _ 52 51 (sin_series64_apx c x v R B) (sin_poly64_near v B)); [lia|lia|vmr].
  - apply (apx_near _ _ _ _ _ 53 51 (cos_series64_apx c x v R B) (cos_poly64_near v B)); [lia|lia|vmr].
Qed.
Lemma series32_ok c : series_ok binary32 (sin_series32 c ToNearest) (cos_series32 c ToNearest) (/ IZR (2 ^ 22)).
Proof.
  intros x v R B. split.
  - apply (apx_near _ _ _ _ _ 24 22 (sin_series32_apx c x v R B) (sin_poly32_near v B)); [lia|lia|vmr].
  - apply (apx_near _ _ _ _ _ 24 22 (cos_series32_apx c x v R B) (cos_poly32_near v B)); [lia|lia|vmr].
Qed.

(* a folded number with its quadrant *)
Definition folded (f : fmt) (p : Z * Z) (a e : R) : Prop :=
  exists n v, (0 <= n)%Z /\ snd p = (n mod 4)%Z /\ rep f (fst p) v /\ Rabs v <= qv quarter /\ Rabs (v - (a - IZR n * (PI / 2))) <= e.
Lemma land3 n : Z.land n 3 = (n mod 4)%Z. Proof. apply (Z.land_ones n 2). lia. Qed.
Lemma mod4 n : (n mod 4 = 0 \/ n mod 4 = 1 \/ n mod 4 = 2 \/ n mod 4 = 3)%Z.
Proof. pose proof (Z.mod_pos_bound n 4 ltac:(lia)). lia. Qed.
Lemma near_cos a b r e d : Rabs (r - cos a) <= e -> Rabs (a - b) <= d -> Rabs (r - cos b) <= e + d.
Proof. intros. pose proof (cos_lipschitz a b). replace (r - cos b) with ((r - cos a) + (cos a - cos b)) by ring. eapply Rle_trans; [apply Rabs_triang|]. lra. Qed.
Lemma near_sin a b r e d : Rabs (r - sin a) <= e -> Rabs (a - b) <= d -> Rabs (r - sin b) <= e + d.
Proof. intros. pose proof (sin_lipschitz a b). replace (r - sin b) with ((r - sin a) + (sin a - sin b)) by ring. eapply Rle_trans; [apply Rabs_triang|]. lra. Qed.
Lemma near_neg r x e : Rabs (r - x) <= e -> Rabs (- r - - x) <= e.
Proof. replace (- r - - x) with (- (r - x)) by ring. rewrite Rabs_Ropp. auto. Qed.
Lemma cos_lane_near f S C p a e d : usual f -> series_ok f S C e -> folded f p a d ->
  exists r, rep f (cos_lane f ToNearest S C p) r /\ Rabs (r - cos a) <= e + d.
Proof.
  intros U SO (n & v & N & Q & R & B & E). destruct (SO _ _ R B) as [(s & Rs & Es) (k & Rk & Ek)].
  pose proof (near_cos _ _ _ _ _ Ek E) as NC. pose proof (near_sin _ _ _ _ _ Es E) as NS.
  set (t := a - IZR n * (PI / 2)) in *. pose proof (quadrant n t N) as QD. replace (t + IZR n * (PI / 2)) with a in QD by (unfold t; ring).
  unfold cos_lane. rewrite (cos_sign_val f (us_ok f U)), (xor_sign f (us_ok f U)) by (rewrite Q; pose proof (mod4 n); lia). rewrite Q.
  destruct (mod4 n) as [M|M]; [|destruct M as [M|M]; [|destruct M as [M|M]]]; rewrite M in *; injection QD as QC QS; rewrite QC; cbn [Z.eqb orb Z.land Pos.land Pos.eqb].
  - exists k. auto.
  - exists (- s). split; [apply (fneg_rep f U); auto|apply near_neg; auto].
  - exists (- k). split; [apply (fneg_rep f U); auto|apply near_neg; auto].
  - exists s. auto.
Qed.
Lemma sin_lane_near f S C x p a e d : usual f -> series_ok f S C e -> rep f x a -> folded f p (Rabs a) d ->
  exists r, rep f (sin_lane f ToNearest S C x p) r /\ Rabs (r - sin a) <= e + d.
Proof.
  intros U SO RX (n & v & N & Q & R & B & E). destruct (SO _ _ R B) as [(s & Rs & Es) (k & Rk & Ek)].
  pose proof (near_cos _ _ _ _ _ Ek E) as NC. pose proof (near_sin _ _ _ _ _ Es E) as NS.
  set (t := Rabs a - IZR n * (PI / 2)) in *. pose proof (quadrant n t N) as QD. replace (t + IZR n * (PI / 2)) with (Rabs a) in QD by (unfold t; ring).
  unfold sin_lane. rewrite (sin_sign_val f (us_ok f U)) by (apply (rep_pattern f) in RX; auto). rewrite <- (xor_signs f), Z.lxor_assoc, !(xor_sign f (us_ok f U)). rewrite Q.
  set (g := if (1 - n mod 4 <? 0)%Z then _ else _).
  assert (G : exists r, rep f g r /\ Rabs (r - sin (Rabs a)) <= e + d).
  { unfold g. clear g. destruct (mod4 n) as [M|M]; [|destruct M as [M|M]; [|destruct M as [M|M]]]; rewrite M in *; injection QD as QC QS; rewrite QS; cbn [Z.eqb orb Z.land Pos.land Pos.eqb].
    - exists s. auto.
    - exists k. auto.
    - exists (- s). split; [apply (fneg_rep f U); auto|apply near_neg; auto].
    - exists (- k). split; [apply (fneg_rep f U); auto|apply near_neg; auto]. }
  destruct G as (r & Rg & Eg). destruct (rep_decode f _ _ RX) as (z & m & D & EA).
  pose proof (rep_pattern f _ _ RX) as PX.
  assert (SG : sign_of f x = z). { rewrite (decode_split f (us_ok f U)) in D. unfold decode_mag in D. repeat match type of D with context [if ?b then _ else _] => destruct b end; congruence. }
  destruct (decode_fin f (us_ok f U) x z m PX D) as (u & Hu & Em & _). assert (Hm : (0 <= m)%Z) by (subst m; apply (mag_nonneg f (us_ok f U)); lia).
  pose proof (O_pos f U) as HO. assert (0 <= IZR m / IZR (one f)). { apply Rmult_le_pos; [apply IZR_le; auto|apply Rlt_le, Rinv_0_lt_compat; auto]. }
  rewrite SG. destruct z; cbn [num] in EA.
  - rewrite opp_IZR in EA. assert (A : Rabs a = - a) by (rewrite Rabs_left1; auto; rewrite EA; unfold Rdiv in *; lra).
    exists (- r). split; [apply (fneg_rep f U); auto|]. rewrite A, sin_neg in Eg. apply near_neg in Eg. replace (- - sin a) with (sin a) in Eg by ring. auto.
  - rewrite (Rabs_pos_eq a) in Eg by lra. exists r. auto.
Qed.

(* numbers *)
Lemma ulp64 : ulp binary64 = / 9007199254740992. Proof. reflexivity. Qed.
Lemma ulp32 : ulp binary32 = / 16777216. Proof. reflexivity. Qed.
Lemma tiny_val : 0 < tiny <= / 1267650600228229401496703205376.
Proof.
  unfold tiny. split; [apply Rinv_0_lt_compat, IZR_lt; reflexivity|]. apply Rinv_le_contravar; [lra|]. apply IZR_le. vm_compute. discriminate.
Qed.
Lemma huge_val : 1267650600228229401496703205376 <= huge. Proof. unfold huge. apply IZR_le. vm_compute. discriminate. Qed.
Lemma pi_val : 3982441812995697363688351113952 / 1267650600228229401496703205376 <= PI <= 3982441812995697363688351113953 / 1267650600228229401496703205376.
Proof. pose proof pi_bounds as H. unfold pi_lo, pi_hi, Q2R in H. cbn [Qnum Qden] in H. exact H. Qed.
Lemma abs_le_lr x b : - b <= x <= b -> Rabs x <= b. Proof. intros [? ?]. apply Rabs_le. lra. Qed.

(* x - y * p with an approximate product *)
Lemma sub_mul_rep f (U : usual f) c x y p v n k w M : rep f x v -> rep f y n -> rep f p k ->
  (exists q, rep f (fmul f ToNearest y p) q /\ Rabs (q - n * k) <= w) -> Rabs (v - n * k) + w <= M -> M <= huge ->
  exists r, rep f (sub_mul c f ToNearest x y p) r /\ Rabs (r - (v - n * k)) <= w + ulp f * M + tiny.
Proof.
  intros Rx Ry Rp (q & Rq & Eq) B H. pose proof (u_pos f U) as UP. pose proof tiny_val as TV.
  assert (W : 0 <= w) by (pose proof (Rabs_pos (q - n * k)); lra). unfold sub_mul. destruct c.
  - assert (X : - n * k + v = v - n * k) by ring.
    destruct (ffma_rep f U (fneg f y) p x (- n) k v (fneg_rep f U _ _ Ry) Rp Rx) as (r & Rr & Er); [rewrite X; lra|].
    rewrite X in Er. exists r. split; auto. assert (ulp f * Rabs (v - n * k) <= ulp f * M) by (apply Rmult_le_compat_l; lra). lra.
  - assert (BQ : Rabs (v - q) <= M).
    { replace (v - q) with ((v - n * k) + - (q - n * k)) by ring. eapply Rle_trans; [apply Rabs_triang|]. rewrite Rabs_Ropp. lra. }
    destruct (fsub_rep f U x _ v q Rx Rq ltac:(lra)) as (r & Rr & Er). exists r. split; auto.
    replace (r - (v - n * k)) with ((r - (v - q)) + - (q - n * k)) by ring. eapply Rle_trans; [apply Rabs_triang|]. rewrite Rabs_Ropp.
    assert (ulp f * Rabs (v - q) <= ulp f * M) by (apply Rmult_le_compat_l; lra). lra.
Qed.
Lemma exact_product f (U : usual f) y p n m k : rep f y (IZR n) -> rep f p (IZR m / IZR (2 ^ k)) -> (0 <= k <= unit f)%Z -> (Z.abs (n * m) <= 2 ^ fp f)%Z ->
  exists q, rep f (fmul f ToNearest y p) q /\ Rabs (q - IZR n * (IZR m / IZR (2 ^ k))) <= 0.
Proof.
  intros Ry Rp K B. exists (IZR (n * m) / IZR (2 ^ k)). split; [apply (fmul_exact_rep f U); auto|].
  rewrite mult_IZR. unfold Rdiv. rewrite Rmult_assoc. replace (_ - _) with 0 by ring. rewrite Rabs_R0. lra.
Qed.
Lemma rounded_product f (U : usual f) y p n k N : rep f y n -> rep f p k -> Rabs (n * k) <= N -> N <= huge ->
  exists q, rep f (fmul f ToNearest y p) q /\ Rabs (q - n * k) <= ulp f * N + tiny.
Proof.
  intros Ry Rp B H. destruct (fmul_rep f U y p n k Ry Rp ltac:(lra)) as (q & Rq & Eq). exists q. split; auto.
  pose proof (u_pos f U). assert (ulp f * Rabs (n * k) <= ulp f * N) by (apply Rmult_le_compat_l; lra). lra.
Qed.

(* constants as reals *)
Lemma lit_val f (U : usual f) s m k : (0 <= m <= 2 ^ fp f)%Z -> (Zpos k <= unit f)%Z -> rep f (lit f s m (- Zpos k)) (IZR (num s m) / IZR (2 ^ Zpos k)).
Proof. intros. apply (lit_rep f U); auto. Qed.
Definition half_pi_d : Z := fmul binary64 ToNearest (fof_int binary64 ToNearest 2) pi_over_4_d.
Lemma half_pi_rep : rep binary64 half_pi_d (7074237752028440 / 4503599627370496).
Proof.
  replace half_pi_d with (lit binary64 false 0x1921fb54442d18 (-52)) by (vm_compute; reflexivity).
  exact (lit_rep binary64 usual64 false 0x1921fb54442d18 52 ltac:(lit_side) ltac:(lit_side)).
Qed.
Lemma fold_y_eq md a : fold_y md a = fround_to_int binary64 md (fdiv binary64 md a half_pi_d).
Proof. unfold fold_y, half_pi_d. reflexivity. Qed.
Lemma prod_range x y a b : - a <= x <= a -> - b <= y <= b -> - (a * b) <= x * y <= a * b.
Proof. intros X Y. apply abs_range. rewrite Rabs_mult. apply Rmult_le_compat; auto using Rabs_pos, abs_le_lr. Qed.
Lemma fold_y_rep a v : rep binary64 a v -> 0 <= v -> v < 2147483648 ->
  exists n, rep binary64 (fold_y ToNearest a) (IZR n) /\ (0 <= n < 2 ^ 31)%Z /\ Rabs (v - IZR n * (PI / 2)) <= 0.78540.
Proof.
  intros R P L. pose proof pi_val as PV. pose proof tiny_val as TV. pose proof huge_val as HV. rewrite fold_y_eq.
  set (h := 7074237752028440 / 4503599627370496). assert (Hh : 1.57079632679489 <= h <= 1.57079632679490) by (unfold h; lra).
  assert (Q : 0 <= v / h <= 1367130552).
  { split; [apply Rmult_le_pos; auto; apply Rlt_le, Rinv_0_lt_compat; lra|]. apply Rmult_le_reg_r with h; [lra|]. unfold Rdiv. rewrite Rmult_assoc, Rinv_l by lra. nra. }
  assert (EV : v = v / h * h) by (field; lra).
  assert (AQ : Rabs (v / h) = v / h) by (apply Rabs_pos_eq; lra).
  destruct (fdiv_rep binary64 usual64 a half_pi_d v h R half_pi_rep ltac:(lra) ltac:(rewrite AQ; lra)) as (q & Rq & Eq).
  rewrite AQ, ulp64 in Eq. apply abs_range in Eq.
  destruct (nearbyint_rep binary64 usual64 _ q Rq) as (n & Rn & En). apply abs_range in En. exists n. split; auto.
  set (g := v / h) in *. clearbody g. clear AQ R Rq Rn.
  assert (EG : / 9007199254740992 * g <= / 6000000) by lra.
  assert (IN : - 1 < IZR n < 2147483648) by lra. split.
  { destruct IN as [I1 I2]. apply lt_IZR in I1. apply lt_IZR in I2. lia. }
  apply abs_le_lr. rewrite EV. assert (EP : Rabs (h - PI / 2) <= / 8000000000000000) by (apply abs_le_lr; unfold h; lra). apply abs_range in EP.
  set (e := h - PI / 2) in *. replace (PI / 2) with (h - e) by (unfold e; ring). clearbody e. set (d := IZR n - g) in *. replace (IZR n) with (g + d) in * by (unfold d; ring). clearbody d.
  assert (DD : - / 2 - / 5000000 <= d <= / 2 + / 5000000) by lra.
  replace (g * h - (g + d) * (h - e)) with (- (d * (h - e)) + g * e) by ring.
  assert (GE : - / 5000000 <= g * e <= / 5000000) by (pose proof (prod_range g e 1367130552 (/ 8000000000000000) ltac:(lra) EP); lra). set (ge := g * e) in *. clearbody ge.
  assert (DH : - 0.7853990 <= d * (h - e) <= 0.7853990) by (pose proof (prod_range d (h - e) (/ 2 + / 5000000) 1.570796327 ltac:(lra) ltac:(lra)); lra). lra.
Qed.
