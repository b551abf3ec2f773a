(* Facts about the real sine and cosine: bounds by polynomials, the effect of an
   error of the argument, quadrants, and pi to a hundred bits. *)
From Coq Require Import ZArith Reals QArith Qreals Lra Lia List Bool Machin Psatz.
Import ListNotations.
Open Scope R_scope.

(* an error of the argument *)
Lemma sin_abs_le x : Rabs (sin x) <= Rabs x.
Proof.
  assert (P : forall y, 0 <= y -> Rabs (sin y) <= y).
  { intros y Hy. destruct (Req_dec y 0) as [->|]; [rewrite sin_0, Rabs_R0; lra|].
    apply Rabs_le. split; [|apply Rlt_le, sin_lt_x; lra].
    destruct (Rle_dec y PI) as [L|L]; [pose proof (sin_ge_0 y Hy L); lra|]. pose proof (SIN_bound y). pose proof PI2_3_2. lra. }
  destruct (Rle_dec 0 x) as [L|L].
  - rewrite (Rabs_pos_eq x) by auto. auto.
  - rewrite <- (Rabs_Ropp (sin x)), <- sin_neg, <- (Rabs_Ropp x), (Rabs_pos_eq (- x)) by lra. apply P. lra.
Qed.
Lemma cos_lipschitz a b : Rabs (cos a - cos b) <= Rabs (a - b).
Proof.
  rewrite form2. rewrite !Rabs_mult. pose proof (sin_abs_le ((a - b) / 2)) as S.
  assert (Rabs (sin ((a + b) / 2)) <= 1) by (apply Rabs_le, SIN_bound).
  assert (E : Rabs (a - b) = 2 * Rabs ((a - b) / 2)).
  { unfold Rdiv. rewrite Rabs_mult, (Rabs_pos_eq (/ 2)) by lra. lra. }
  rewrite E. replace (Rabs (-2)) with 2 by (rewrite Rabs_left; lra).
  pose proof (Rabs_pos (sin ((a - b) / 2))). pose proof (Rabs_pos (sin ((a + b) / 2))). nra.
Qed.
Lemma sin_lipschitz a b : Rabs (sin a - sin b) <= Rabs (a - b).
Proof.
  rewrite <- (cos_shift a), <- (cos_shift b). eapply Rle_trans; [apply cos_lipschitz|].
  replace (PI / 2 - a - (PI / 2 - b)) with (- (a - b)) by ring. rewrite Rabs_Ropp. lra.
Qed.

(* quadrants *)
Lemma period_nat k t : cos (t + 2 * INR k * PI) = cos t /\ sin (t + 2 * INR k * PI) = sin t.
Proof. split; [apply cos_period|apply sin_period]. Qed.
Lemma quadrant n t : (0 <= n)%Z ->
  (cos (t + IZR n * (PI / 2)), sin (t + IZR n * (PI / 2))) =
  match (n mod 4)%Z with
  | 0%Z => (cos t, sin t) | 1%Z => (- sin t, cos t) | 2%Z => (- cos t, - sin t) | _ => (sin t, - cos t)
  end.
Proof.
  intros Hn. pose proof (Z.div_mod n 4 ltac:(lia)) as D. pose proof (Z.mod_pos_bound n 4 ltac:(lia)) as B.
  set (k := (n / 4)%Z) in *. set (q := (n mod 4)%Z) in *.
  assert (E : t + IZR n * (PI / 2) = (t + IZR q * (PI / 2)) + 2 * INR (Z.to_nat k) * PI).
  { rewrite INR_IZR_INZ, Z2Nat.id by lia. rewrite D, plus_IZR, mult_IZR. field. }
  rewrite E. destruct (period_nat (Z.to_nat k) (t + IZR q * (PI / 2))) as [PC PS]. rewrite PC, PS.
  assert (Q : (q = 0 \/ q = 1 \/ q = 2 \/ q = 3)%Z) by lia. destruct Q as [Q|[Q|[Q|Q]]]; rewrite Q.
  - rewrite Rmult_0_l, Rplus_0_r. auto.
  - rewrite Rmult_1_l. f_equal.
    + rewrite <- (sin_shift (t + PI / 2)). rewrite <- sin_neg. f_equal. ring.
    + rewrite <- (cos_shift (t + PI / 2)). rewrite <- cos_neg. f_equal. ring.
  - replace (2 * (PI / 2)) with PI by field. rewrite neg_cos, neg_sin. auto.
  - replace (t + 3 * (PI / 2)) with (t + PI / 2 + PI) by field. rewrite neg_cos, neg_sin. f_equal.
    + rewrite <- (sin_shift (t + PI / 2)). rewrite <- sin_neg. f_equal. ring.
    + f_equal. rewrite <- (cos_shift (t + PI / 2)). rewrite <- cos_neg. f_equal. ring.
Qed.

(* the Taylor polynomials *)
Fixpoint zfact (n : nat) : Z := match n with O => 1%Z | S m => (Z.of_nat n * zfact m)%Z end.
Lemma fact_zfact n : INR (fact n) = IZR (zfact n).
Proof.
  induction n as [|n IH]; [reflexivity|]. rewrite fact_simpl, mult_INR, IH. cbn [zfact]. rewrite mult_IZR, <- INR_IZR_INZ. auto.
Qed.
Lemma cos_term_val a i : cos_term a i = (- 1) ^ i * (a * a) ^ i / IZR (zfact (2 * i)).
Proof.
  unfold cos_term. rewrite fact_zfact. replace (a ^ (2 * i)) with ((a * a) ^ i); [unfold Rdiv; ring|].
  rewrite pow_mult. f_equal. ring.
Qed.
Lemma sin_term_val a i : sin_term a i = a * ((- 1) ^ i * (a * a) ^ i / IZR (zfact (2 * i + 1))).
Proof.
  unfold sin_term. rewrite fact_zfact. replace (a ^ (2 * i + 1)) with (a * (a * a) ^ i); [unfold Rdiv; ring|].
  rewrite pow_add, pow_mult. replace (a ^ 2) with (a * a) by ring. ring.
Qed.
Lemma cos_taylor a n : -2 <= a <= 2 ->
  Rabs (cos a - sum_f_R0 (cos_term a) (2 * (n + 1))) <= (a * a) ^ (2 * n + 3) / IZR (zfact (2 * (2 * n + 3))).
Proof.
  intros [A B]. destruct (pre_cos_bound a n A B) as [_ U]. destruct (pre_cos_bound a (n + 1) A B) as [L _]. unfold cos_approx in *.
  replace (2 * (n + 1) + 1)%nat with (S (2 * (n + 1))) in L by lia. cbn [sum_f_R0] in L. rewrite cos_term_val in L.
  replace (S (2 * (n + 1))) with (2 * n + 3)%nat in L by lia.
  assert (O : (- 1) ^ (2 * n + 3) = - 1). { replace (2 * n + 3)%nat with (S (2 * (n + 1))) by lia. apply pow_1_odd. }
  rewrite O in L. apply Rabs_le. unfold Rdiv in *. split; lra.
Qed.
Lemma sin_taylor a n : 0 <= a <= 4 ->
  Rabs (sin a - sum_f_R0 (sin_term a) (2 * (n + 1))) <= a * ((a * a) ^ (2 * n + 3) / IZR (zfact (2 * (2 * n + 3) + 1))).
Proof.
  intros [A B]. destruct (pre_sin_bound a n A B) as [_ U]. destruct (pre_sin_bound a (n + 1) A B) as [L _]. unfold sin_approx in *.
  replace (2 * (n + 1) + 1)%nat with (S (2 * (n + 1))) in L by lia. cbn [sum_f_R0] in L. rewrite sin_term_val in L.
  replace (S (2 * (n + 1))) with (2 * n + 3)%nat in L by lia.
  assert (O : (- 1) ^ (2 * n + 3) = - 1). { replace (2 * n + 3)%nat with (S (2 * (n + 1))) by lia. apply pow_1_odd. }
  rewrite O in L. apply Rabs_le. unfold Rdiv in *. split; lra.
Qed.

(* pi: the series 2 atan(1/3) + atan(1/7), in multiples of 2^-130 *)
Definition atan_term (n : nat) : Z :=
  let d := (2 * Z.of_nat n + 1)%Z in ((2 * 2 ^ 130) / (3 ^ d * d) + 2 ^ 130 / (7 ^ d * d))%Z.
Fixpoint atan_sum (n : nat) : Z * Z :=
  let t := atan_term n in
  let '(l, h) := match n with O => (0, 0)%Z | S m => atan_sum m end in
  if Nat.even n then (l + t, h + (t + 2))%Z else (l - (t + 2), h - t)%Z.
Lemma floor_R a b : (0 < b)%Z -> IZR (a / b) <= IZR a / IZR b <= IZR (a / b + 1).
Proof.
  intros Hb. pose proof (Z.div_mod a b ltac:(lia)) as D. pose proof (Z.mod_pos_bound a b Hb) as B. set (q := (a / b)%Z) in *.
  assert (Hb' : 0 < IZR b) by (apply IZR_lt; auto).
  split; apply Rmult_le_reg_r with (IZR b); auto; unfold Rdiv; rewrite Rmult_assoc, Rinv_l, Rmult_1_r by lra; rewrite <- mult_IZR; apply IZR_le; nia.
Qed.
Lemma atan_term_val n : IZR (atan_term n) <= IZR (2 ^ 130) * PI_2_3_7_tg n <= IZR (atan_term n + 2).
Proof.
  unfold atan_term. cbv zeta. set (d := (2 * n + 1)%nat). replace (2 * Z.of_nat n + 1)%Z with (Z.of_nat d) by (unfold d; lia).
  assert (D : (0 < Z.of_nat d)%Z) by (unfold d; lia).
  assert (P3 : (0 < 3 ^ Z.of_nat d * Z.of_nat d)%Z) by (apply Z.mul_pos_pos; auto; apply Z.pow_pos_nonneg; lia).
  assert (P7 : (0 < 7 ^ Z.of_nat d * Z.of_nat d)%Z) by (apply Z.mul_pos_pos; auto; apply Z.pow_pos_nonneg; lia).
  destruct (floor_R (2 * 2 ^ 130) _ P3) as [A1 A2]. destruct (floor_R (2 ^ 130) _ P7) as [B1 B2].
  assert (E : IZR (2 ^ 130) * PI_2_3_7_tg n = IZR (2 * 2 ^ 130) / IZR (3 ^ Z.of_nat d * Z.of_nat d) + IZR (2 ^ 130) / IZR (7 ^ Z.of_nat d * Z.of_nat d)).
  { unfold PI_2_3_7_tg, Ratan_seq. fold d. rewrite (mult_IZR 2), (mult_IZR (3 ^ _)), (mult_IZR (7 ^ _)), <- (pow_IZR 3), <- (pow_IZR 7), <- INR_IZR_INZ.
    assert (0 < INR d) by (apply lt_0_INR; unfold d; lia).
    set (c := IZR (2 ^ 130)). rewrite !pow_inv. field. repeat split; try lra; apply pow_nonzero; lra. }
  rewrite E. set (x := (2 * 2 ^ 130 / (3 ^ Z.of_nat d * Z.of_nat d))%Z) in *. set (y := (2 ^ 130 / (7 ^ Z.of_nat d * Z.of_nat d))%Z) in *.
  rewrite (plus_IZR x 1) in A2. rewrite (plus_IZR y 1) in B2. rewrite (plus_IZR (x + y) 2), (plus_IZR x y). lra.
Qed.
Lemma atan_sum_val n : IZR (fst (atan_sum n)) <= IZR (2 ^ 130) * sum_f_R0 (tg_alt PI_2_3_7_tg) n <= IZR (snd (atan_sum n)).
Proof.
  assert (T : forall n l h s, IZR l <= IZR (2 ^ 130) * s <= IZR h -> 
    let '(l', h') := if Nat.even n then (l + atan_term n, h + (atan_term n + 2))%Z else (l - (atan_term n + 2), h - atan_term n)%Z in
    IZR l' <= IZR (2 ^ 130) * (s + tg_alt PI_2_3_7_tg n) <= IZR h').
  { clear n. intros n l h s B. pose proof (atan_term_val n) as T. unfold tg_alt. set (t := atan_term n) in *. set (c := IZR (2 ^ 130)) in *.
    destruct (Nat.even n) eqn:E.
    - apply Nat.even_spec in E. destruct E as [k Ek]. replace ((- 1) ^ n) with 1; [rewrite (plus_IZR l), (plus_IZR h); lra|]. rewrite Ek. symmetry. apply pow_1_even.
    - assert (E' : Nat.odd n = true) by (rewrite <- Nat.negb_even, E; auto). apply Nat.odd_spec in E'. destruct E' as [k Ek].
      replace ((- 1) ^ n) with (- 1); [rewrite (minus_IZR l), (minus_IZR h); lra|]. rewrite Ek. replace (2 * k + 1)%nat with (1 + 2 * k)%nat by lia.
      symmetry. apply pow_1_odd. }
  induction n as [|n IH]; cbn [sum_f_R0].
  - specialize (T 0%nat 0%Z 0%Z 0 ltac:(lra)). cbn [atan_sum]. cbn [Nat.even] in *. cbn [fst snd]. rewrite Rplus_0_l in T. exact T.
  - specialize (T (S n) (fst (atan_sum n)) (snd (atan_sum n)) _ IH).
    change (atan_sum (S n)) with (let '(l, h) := atan_sum n in if Nat.even (S n) then (l + atan_term (S n), h + (atan_term (S n) + 2))%Z else (l - (atan_term (S n) + 2), h - atan_term (S n))%Z).
    destruct (atan_sum n) as [l h]. cbn [fst snd] in T. destruct (Nat.even (S n)); cbn [fst snd]; exact T.
Qed.
(* pi * 2^100, rounded down *)
Definition pi_bits : Z := 3982441812995697363688351113952%Z.
Definition pi_lo : Q := pi_bits # (2 ^ 100).
Definition pi_hi : Q := (pi_bits + 1) # (2 ^ 100).
Lemma pi_bounds : Q2R pi_lo <= PI <= Q2R pi_hi.
Proof.
  destruct (PI_2_3_7_ineq 31) as [L U].
  pose proof (atan_sum_val (S (2 * 31))) as [L1 _]. pose proof (atan_sum_val (2 * 31)) as [_ U1].
  assert (L2 : (pi_bits * 2 ^ 28 <= fst (atan_sum (S (2 * 31))))%Z) by (apply Z.leb_le; vm_compute; reflexivity).
  assert (U2 : (snd (atan_sum (2 * 31)) <= (pi_bits + 1) * 2 ^ 28)%Z) by (apply Z.leb_le; vm_compute; reflexivity).
  apply IZR_le in L2. apply IZR_le in U2. rewrite mult_IZR in L2, U2.
  set (SL := sum_f_R0 _ (S (2 * 31))) in *. set (SU := sum_f_R0 _ (2 * 31)) in *.
  set (l := fst (atan_sum (S (2 * 31)))) in *. set (h := snd (atan_sum (2 * 31))) in *. clearbody SL SU l h.
  unfold pi_lo, pi_hi, Q2R. cbn [Qnum Qden]. change (Zpos (2 ^ 100)) with (2 ^ 100)%Z.
  assert (E : IZR (2 ^ 130) = 4 * IZR (2 ^ 100) * IZR (2 ^ 28)) by (rewrite <- !mult_IZR; reflexivity).
  assert (P : 0 < IZR (2 ^ 100)) by (apply IZR_lt; reflexivity). assert (P' : 0 < IZR (2 ^ 28)) by (apply IZR_lt; reflexivity).
  rewrite E in *. set (c := IZR (2 ^ 100)) in *. set (e := IZR (2 ^ 28)) in *. set (b := IZR pi_bits) in *. set (b' := IZR (pi_bits + 1)) in *.
  clearbody c e b b'.
  assert (X : b * e <= PI * c * e) by nra. assert (Y : PI * c * e <= b' * e) by nra.
  apply Rmult_le_reg_r in X; auto. apply Rmult_le_reg_r in Y; auto.
  split; apply Rmult_le_reg_r with c; auto; rewrite ?Rmult_assoc, ?Rinv_l, ?Rmult_1_r by lra; lra.
Qed.
