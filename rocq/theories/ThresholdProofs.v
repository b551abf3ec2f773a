From Coq Require Import ZArith List Bool Lia.
From Verif Require Import X86Lanes FloatSpec FloatRoundSpec FloatBits FloatProofs FloatRoundProofs FloatArith FloatArithProofs FloatFrexp
  SinCos LdexpSpec LdexpProofs ArithSpec ArithProofs ArithTop Threshold ThresholdSpec.
Local Open Scope Z_scope.

(* b rounded from v / u lies between numbers of the format that v / u lies between *)
Lemma rounded_between f v u y lo hi : fmt_ok f -> 0 < u -> finite_number f lo -> finite_number f hi ->
  lo * u <= v <= hi * u -> correctly_rounded f ToNearest false v u y -> exists n, y = DFin false n /\ lo <= n <= hi.
Proof.
  intros Hf Hu L H B C.
  assert (FT : forall n, finite_number f n -> 0 <= n <= largest f).
  { intros k K. destruct (finite_mag f Hf k K) as (b & Hb & ->). rewrite (largest_mag f Hf). split; [apply (mag_nonneg f Hf); lia|apply (mag_le f Hf); lia]. }
  assert (LT : largest f < top f).
  { rewrite (largest_mag f Hf), (top_mag f Hf). pose proof (inf_pos f Hf). apply (mag_mono f Hf); lia. }
  pose proof (FT lo L). pose proof (FT hi H). destruct y as [|s'|s' n]; cbn [correctly_rounded direction_of] in C; [contradiction| |].
  - destruct C as [_ C]. exfalso. nia.
  - destruct C as [-> (x & N & _ & C)]. exists n. split; auto. destruct (C lo L) as [C1 _]. destruct (C hi H) as [C2 _].
    split; nia.
Qed.
(* among the small numbers, the nearest integer *)
Lemma rounded_small f v u y m : fmt_ok f -> 0 < u -> 0 <= v -> v < m * u -> m < 2 ^ mb f ->
  (forall k, 0 <= k < 2 ^ mb f -> finite_number f k) ->
  correctly_rounded f ToNearest false v u y -> exists n, y = DFin false n /\ 0 <= n <= m /\ 2 * Z.abs (n * u - v) <= u.
Proof.
  intros Hf Hu Hv Hm M F C. set (q := v / u). pose proof (Z.mul_div_le v u Hu) as A. pose proof (Z.mul_succ_div_gt v u Hu) as B. fold q in A, B.
  assert (Q0 : 0 <= q) by (apply Z.div_pos; lia). assert (Q1 : q < m) by nia.
  destruct (rounded_between f v u y q (q + 1) Hf Hu) as (n & -> & N); auto; [apply F; lia|apply F; lia|nia|].
  exists n. split; auto. split; [lia|]. destruct C as [_ (x & _ & _ & C)].
  destruct (C q ltac:(apply F; lia)) as [C1 _]. destruct (C (q + 1) ltac:(apply F; lia)) as [C2 _]. nia.
Qed.

Lemma product_pattern f md x y : fmt_ok f -> pattern f (fmul f md x y).
Proof.
  intros Hf. pose proof (inf_pos f Hf). pose proof (inf_lt f Hf). pose proof (unit_ge f Hf).
  unfold fmul. destruct (decode f x) as [|a|a m], (decode f y) as [|b|b n]; try destruct (_ =? 0);
    try apply (pattern_nan f Hf); try (apply (with_sign_pattern f Hf); lia); apply (fround_pattern f Hf); auto.
Qed.

Lemma search_step f k x y : search f (S k) x y =
  let mid := fdiv f ToNearest (fadd f ToNearest x y) (radix f) in
  if c_equal f mid x || c_equal f mid y then Some x
  else if c_less_equal f (fdiv f ToNearest (one_bits f) (fmul f ToNearest (radix f) mid)) (fdiv f ToNearest (finite_max_bits f) (radix f))
  then search f k mid y else search f k x mid.
Proof. reflexivity. Qed.

Section Format.
  Variable f : fmt.
  Hypothesis Hw : wide_fmt f.
  Let Hf : fmt_ok f := proj1 Hw.
  Let M := 2 ^ mb f.
  (* 2^(p - 3), in which all other numbers are expressed *)
  Let P := 2 ^ (fp f - 3).
  Let B := 2 ^ (2 * bias f - 1).

  Lemma p_facts : 256 <= P /\ M = 4 * P /\ top f = 8 * P * B /\ largest f = (8 * P - 1) * B /\ one f * one f = P * top f /\ 0 < B.
  Proof.
    pose proof Hw as (F & Hp). destruct F as (_ & _ & Hb). unfold M, P, B, largest, top, one, unit, mb.
    assert (EP : 2 ^ (fp f - 1 + 2 * bias f) = 8 * 2 ^ (fp f - 3) * 2 ^ (2 * bias f - 1)).
    { change 8 with (2 ^ 3). rewrite <- !Z.pow_add_r by lia. f_equal. lia. }
    split; [|split; [|split; [exact EP|split; [|split]]]].
    - change 256 with (2 ^ 8). apply Z.pow_le_mono_r; lia.
    - change 4 with (2 ^ 2). rewrite <- Z.pow_add_r by lia. f_equal. lia.
    - rewrite EP. ring.
    - rewrite <- !Z.pow_add_r by lia. f_equal. lia.
    - apply Z.pow_pos_nonneg; lia.
  Qed.

  Lemma small_number k : 0 <= k < M -> finite_number f k.
  Proof.
    intros H. exists k. pose proof (number_mag f Hf k) as N. rewrite (mag_small f k) in N by (unfold M in H; lia). apply N.
    split; [lia|]. unfold inf_bits. pose proof Hf as (_ & He & _). pose proof (Z.pow_le_mono_r 2 1 (eb f) ltac:(lia) ltac:(lia)). fold M. nia.
  Qed.
  Lemma shifted_number c e : M <= c < 2 * M -> 0 <= e <= 2 * bias f - 1 -> finite_number f (c * 2 ^ e).
  Proof.
    intros Hc He. exists ((e + 1) * M + (c - M)).
    pose proof (number_mag f Hf ((e + 1) * M + (c - M))) as N.
    pose proof (mag_qr f Hf (e + 1) (c - M) ltac:(lia) ltac:(fold M; lia)) as Q. fold M in Q. rewrite Q in N. clear Q. replace (M + (c - M)) with c in N by ring.
    replace (e + 1 - 1) with e in N by lia. apply N.
    unfold inf_bits. fold M. assert (E : 2 ^ eb f = 2 * (bias f + 1)).
    { unfold bias. replace (eb f) with (Z.succ (eb f - 1)) at 1 by lia. pose proof Hf as (_ & Q & _). rewrite Z.pow_succ_r by lia. ring. }
    rewrite E. nia.
  Qed.

  Let H2 := 2 ^ (2 * bias f - 2).
  Lemma b_half : B = 2 * H2 /\ 0 < H2.
  Proof.
    pose proof Hf as (_ & _ & Hb). assert (11 <= fp f) by apply Hw. unfold B, H2. split; [|apply Z.pow_pos_nonneg; lia].
    replace (2 * bias f - 1) with (Z.succ (2 * bias f - 2)) by lia. apply Z.pow_succ_r. lia.
  Qed.
  Lemma bias_ge : 14 <= bias f.
  Proof. pose proof Hf as (_ & _ & Hb). assert (11 <= fp f) by apply Hw. lia. Qed.

  Lemma dec_radix : pattern f (radix f) /\ decode f (radix f) = DFin false (2 * one f).
  Proof.
    pose proof bias_ge. split; [apply (fround_pattern f Hf); lia|]. destruct (fof_int_ok f Hf ToNearest 2) as [_ R]. specialize (R ltac:(lia)). fold (radix f) in R.
    pose proof (one_pos f Hf). unfold rounds_to in R. replace (2 * one f <? 0) with false in R by (symmetry; apply Z.ltb_ge; lia). rewrite Z.abs_eq in R by lia.
    assert (F : finite_number f (2 * one f)).
    { replace (2 * one f) with (M * 2 ^ bias f). { apply shifted_number; fold M; destruct p_facts as (? & ? & _); lia. }
      unfold M, one, unit. change 2 with (2 ^ 1) at 3. pose proof (mb_pos f Hf). rewrite <- !Z.pow_add_r by lia. f_equal. lia. }
    apply (rounded_exact f ToNearest false (2 * one f) 1 _ Hf ltac:(lia) F). rewrite Z.mul_1_r. exact R.
  Qed.
  Lemma dec_max : pattern f (finite_max_bits f) /\ decode f (finite_max_bits f) = DFin false (largest f) /\ finite_number f (largest f).
  Proof.
    rewrite (max_val f). pose proof (inf_pos f Hf). pose proof (number_mag f Hf (inf_bits f - 1) ltac:(lia)) as N. rewrite <- (largest_mag f Hf) in N.
    destruct N as [N1 N2]. split; [exact N1|]. split; [exact N2|]. eexists; split; eassumption.
  Qed.
  Lemma dec_half_max : decode f (fdiv f ToNearest (finite_max_bits f) (radix f)) = DFin false ((8 * P - 1) * H2).
  Proof.
    destruct dec_max as (Px & Dx & _). destruct dec_radix as (Py & Dy). pose proof (fdiv_ok f Hf ToNearest _ _ Px Py) as Q. rewrite Dx, Dy in Q.
    cbn [quotient_result xorb] in Q. pose proof (one_pos f Hf). destruct (Z.eqb_spec (2 * one f) 0); [lia|].
    destruct p_facts as (P0 & EM & ET & EL & _ & _). destruct b_half as (EB & H0).
    apply (rounded_exact f ToNearest false ((8 * P - 1) * H2) (2 * one f) _ Hf ltac:(lia)).
    - apply shifted_number; [lia|]. pose proof bias_ge. lia.
    - replace ((8 * P - 1) * H2 * (2 * one f)) with (largest f * one f) by (rewrite EL, EB; ring). exact Q.
  Qed.

  (* the test of the search *)
  Lemma test_ok mid n : pattern f mid -> decode f mid = DFin false n -> 3 * P <= 4 * n -> n < 2 * P ->
    c_less_equal f (fdiv f ToNearest (one_bits f) (fmul f ToNearest (radix f) mid)) (fdiv f ToNearest (finite_max_bits f) (radix f)) = (P <? n).
  Proof.
    intros Pm Dm L U. unfold c_less_equal. rewrite dec_half_max. destruct p_facts as (P0 & EM & ET & EL & EO & B0). destruct b_half as (EB & H0).
    destruct dec_radix as (Pr & Dr). pose proof (one_pos f Hf) as O.
    assert (D2 : decode f (fmul f ToNearest (radix f) mid) = DFin false (2 * n)).
    { pose proof (fmul_ok f Hf ToNearest _ _ Pr Pm) as Q. rewrite Dr, Dm in Q. cbn [product_result xorb] in Q.
      apply (rounded_exact f ToNearest false (2 * n) (one f) _ Hf O); [apply small_number; fold M; lia|].
      replace (2 * n * one f) with (2 * one f * n) by ring. exact Q. }
    destruct (one_val f Hf) as (P1 & _). pose proof (fdiv_ok f Hf ToNearest _ _ P1 (product_pattern f ToNearest (radix f) mid Hf)) as Q.
    rewrite (decode_one f Hf), D2 in Q. cbn [quotient_result xorb] in Q. destruct (Z.eqb_spec (2 * n) 0); [lia|].
    pose proof bias_ge. rewrite EO, ET, EB in Q.
    destruct (Z.ltb_spec P n) as [G|G].
    - assert (G1 : 0 * (2 * n) <= P * (8 * P * (2 * H2)) <= (8 * P - 1) * H2 * (2 * n)).
      { assert (E : 16 * P * P <= (8 * P - 1) * (2 * n)) by (clear - P0 G; nia). split; [clear - P0 H0; nia|].
        apply (Z.mul_le_mono_nonneg_r _ _ H2) in E; [|lia]. clear - E. lia. }
      destruct (rounded_between f (P * (8 * P * (2 * H2))) (2 * n) _ 0 ((8 * P - 1) * H2) Hf ltac:(lia)
        ltac:(apply small_number; fold M; lia) ltac:(apply shifted_number; [fold M; lia|lia]) G1 Q) as (k & -> & K).
      unfold less_equal. cbn [ieee_compare num]. destruct (Z.compare_spec k ((8 * P - 1) * H2)); auto. lia.
    - assert (G1 : 8 * P * H2 * (2 * n) <= P * (8 * P * (2 * H2)) <= largest f * (2 * n)).
      { rewrite EL, EB. assert (E : 16 * P * P <= (8 * P - 1) * 2 * (2 * n)) by (clear - P0 G L; nia). assert (E' : 16 * P * n <= 16 * P * P) by (clear - P0 G; nia).
        apply (Z.mul_le_mono_nonneg_r _ _ H2) in E; [|lia]. apply (Z.mul_le_mono_nonneg_r _ _ H2) in E'; [|lia]. clear - E E'. lia. }
      destruct (rounded_between f (P * (8 * P * (2 * H2))) (2 * n) _ (8 * P * H2) (largest f) Hf ltac:(lia)
        ltac:(replace (8 * P * H2) with (M * B) by (rewrite EM, EB; ring); apply shifted_number; [fold M; lia|lia])
        ltac:(apply dec_max) G1 Q) as (k & -> & K).
      unfold less_equal. cbn [ieee_compare num]. destruct (Z.compare_spec k ((8 * P - 1) * H2)); auto; nia.
  Qed.

  (* the middle *)
  Lemma mid_ok x y a b : pattern f x -> pattern f y -> decode f x = DFin false a -> decode f y = DFin false b -> 0 < b -> 0 < a -> a < 2 * P -> b < 2 * P ->
    let mid := fdiv f ToNearest (fadd f ToNearest x y) (radix f) in
    pattern f mid /\ exists n, decode f mid = DFin false n /\ Z.abs (2 * n - (a + b)) <= 1.
  Proof.
    intros Px Py Dx Dy B0 A0 A1 B1 mid. destruct p_facts as (P0 & EM & _). destruct dec_radix as (Pr & Dr). pose proof (one_pos f Hf) as O.
    pose proof (fadd_pattern f Hf ToNearest x y) as Ps.
    assert (Ds : decode f (fadd f ToNearest x y) = DFin false (a + b)).
    { pose proof (fadd_ok f Hf ToNearest x y) as Q. rewrite Dx, Dy in Q. cbn [sum_result num] in Q. destruct Q as [_ Q]. specialize (Q ltac:(lia)).
      unfold rounds_to in Q. replace (a + b <? 0) with false in Q by (symmetry; apply Z.ltb_ge; lia). rewrite Z.abs_eq in Q by lia.
      apply (rounded_exact f ToNearest false (a + b) 1 _ Hf ltac:(lia)); [apply small_number; fold M; lia|]. rewrite Z.mul_1_r. exact Q. }
    split; [apply fdiv_pattern; auto|]. pose proof (fdiv_ok f Hf ToNearest _ _ Ps Pr) as Q. fold mid in Q. rewrite Ds, Dr in Q. cbn [quotient_result xorb] in Q.
    destruct (Z.eqb_spec (2 * one f) 0); [lia|].
    destruct (rounded_small f ((a + b) * one f) (2 * one f) _ (2 * P) Hf ltac:(lia) ltac:(nia) ltac:(nia) ltac:(fold M; lia) (fun k => small_number k) Q) as (k & Ek & K & D).
    exists k. split; auto. nia.
  Qed.

  Lemma search_ok k : forall x y a b, pattern f x -> pattern f y -> decode f x = DFin false a -> decode f y = DFin false b ->
    3 * P <= 4 * b -> b <= P -> P < a -> a < 2 * P -> a - b <= 2 ^ Z.of_nat k ->
    exists z, search f (S k) x y = Some z /\ pattern f z /\ decode f z = DFin false (P + 1).
  Proof.
    destruct p_facts as (P0 & _). induction k as [|k IH]; intros x y a b Px Py Dx Dy B0 B1 A0 A1 D;
      destruct (mid_ok x y a b Px Py Dx Dy ltac:(lia) ltac:(lia) A1 ltac:(lia)) as (Pm & n & Dm & N); cbv zeta in *;
      rewrite search_step; set (mid := fdiv f ToNearest (fadd f ToNearest x y) (radix f)) in *; cbv zeta;
      unfold c_equal at 1 2; rewrite Dm, Dx, Dy; cbn [ieee_compare num].
    - change (2 ^ Z.of_nat 0) with 1 in D. assert (E : n = a \/ n = b) by lia.
      exists x. split; [|split; [auto|]; rewrite Dx; f_equal; lia].
      destruct E as [->| ->]; rewrite Z.compare_refl; [reflexivity|]. destruct (b ?= a); reflexivity.
    - rewrite Nat2Z.inj_succ, Z.pow_succ_r in D by lia.
      destruct (Z.compare_spec n a) as [E|E|E]; [exists x; split; [reflexivity|split; [auto|]; rewrite Dx; f_equal; lia]| |exfalso; lia].
      destruct (Z.compare_spec n b) as [E'|E'|E']; [exists x; split; [reflexivity|split; [auto|]; rewrite Dx; f_equal; lia]|exfalso; lia|].
      cbn [orb]. rewrite (test_ok mid n Pm Dm) by lia. clear - IH Px Py Dx Dy Pm Dm B0 B1 A0 A1 D N E E'.
      destruct (Z.ltb_spec P n) as [T|T]; [refine (IH mid y n b Pm Py Dm Dy _ _ _ _ _)|refine (IH x mid a n Px Pm Dx Dm _ _ _ _ _)];
        clear - B0 B1 A0 A1 D N E E' T; lia.
  Qed.

  (* the two ends of the search *)
  Let K := 2 ^ (fp f - 11).
  Lemma k_facts : P = 256 * K /\ one f = 1024 * K * 2 ^ (bias f - 1) /\ one f = 2048 * K * 2 ^ (bias f - 2) /\ 0 < K.
  Proof.
    assert (11 <= fp f) by apply Hw. pose proof bias_ge. pose proof Hf as (_ & _ & Hb). unfold K, P, one, unit, mb.
    change 256 with (2 ^ 8). change 1024 with (2 ^ 10). change 2048 with (2 ^ 11). rewrite <- !Z.pow_add_r by lia.
    split; [f_equal; lia|]. split; [f_equal; lia|]. split; [f_equal; lia|]. apply Z.pow_pos_nonneg; lia.
  Qed.
  (* a literal between numbers with ten digits *)
  Lemma literal_between w k lo hi c e : 0 <= k -> 0 < w -> 0 <= e <= 2 * bias f - 1 -> 0 < c ->
    one f = c * K * 2 ^ e -> lo * 2 ^ k <= c * w <= hi * 2 ^ k -> 1024 <= lo -> hi < 2048 -> lo <= hi ->
    pattern f (fround f ToNearest false (w * 2 ^ unit f) k) /\
    exists n, decode f (fround f ToNearest false (w * 2 ^ unit f) k) = DFin false n /\ lo * one f <= c * n <= hi * one f.
  Proof.
    intros Hk W He C O Q L H LH. destruct k_facts as (EP & _ & _ & K0). destruct p_facts as (P0 & EM & _). pose proof (one_pos f Hf) as O0.
    change (2 ^ unit f) with (one f). split; [apply (fround_pattern f Hf); lia|].
    assert (V : w * one f <> 0) by nia. pose proof (fround_rounds f Hf ToNearest false (w * one f) k Hk V) as R. unfold rounds_to in R.
    replace (w * one f <? 0) with false in R by (symmetry; apply Z.ltb_ge; nia). rewrite Z.abs_eq in R by nia.
    assert (E0 : 0 < 2 ^ e) by (apply Z.pow_pos_nonneg; lia). assert (K1 : 0 < 2 ^ k) by (apply Z.pow_pos_nonneg; lia).
    assert (KE : 0 < K * 2 ^ e) by (apply Z.mul_pos_pos; auto).
    assert (R1 : M <= lo * K < 2 * M) by (rewrite EM, EP; clear - L H LH K0; nia). assert (R2 : M <= hi * K < 2 * M) by (rewrite EM, EP; clear - L H LH K0; nia).
    assert (BT : lo * K * 2 ^ e * 2 ^ k <= w * one f <= hi * K * 2 ^ e * 2 ^ k).
    { rewrite O. destruct Q as [Q1 Q2]. apply (Z.mul_le_mono_nonneg_r _ _ (K * 2 ^ e)) in Q1; [|lia]. apply (Z.mul_le_mono_nonneg_r _ _ (K * 2 ^ e)) in Q2; [|lia].
      clear - Q1 Q2. lia. }
    destruct (rounded_between f (w * one f) (2 ^ k) _ (lo * K * 2 ^ e) (hi * K * 2 ^ e) Hf K1 (shifted_number _ e R1 He) (shifted_number _ e R2 He) BT R) as (n & -> & N).
    exists n. split; auto. rewrite O. destruct N as [N1 N2]. apply (Z.mul_le_mono_nonneg_l _ _ c) in N1; [|lia]. apply (Z.mul_le_mono_nonneg_l _ _ c) in N2; [|lia].
      clear - N1 N2. lia.
  Qed.
  Lemma lit_101_ok : pattern f (lit_101 f) /\ exists n, decode f (lit_101 f) = DFin false n /\ 129 * one f <= 128 * n <= 130 * one f.
  Proof.
    pose proof bias_ge. destruct k_facts as (_ & O & _ & _).
    destruct (literal_between 4548635623644201 52 1032 1040 1024 (bias f - 1)) as (Pt & n & D & N); try lia; auto.
    split; [exact Pt|]. exists n. split; [exact D|lia].
  Qed.
  Lemma lit_099_ok : pattern f (lit_099 f) /\ exists n, decode f (lit_099 f) = DFin false n /\ 126 * one f <= 128 * n <= 127 * one f.
  Proof.
    pose proof bias_ge. destruct k_facts as (_ & _ & O & _).
    destruct (literal_between 8917127262193582 53 2016 2032 2048 (bias f - 2)) as (Pt & n & D & N); try lia; auto.
    split; [exact Pt|]. exists n. split; [exact D|lia].
  Qed.
  Lemma end_ok x a : pattern f x -> decode f x = DFin false a -> 126 * one f <= 128 * a <= 130 * one f ->
    let y := fdiv f ToNearest x (finite_max_bits f) in
    pattern f y /\ exists n, decode f y = DFin false n /\ 2 * Z.abs (n * ((8 * P - 1) * B) - a * one f) <= (8 * P - 1) * B.
  Proof.
    intros Px Dx A y. destruct p_facts as (P0 & EM & ET & EL & EO & B0). pose proof (one_pos f Hf) as O. destruct dec_max as (Py & Dy & _).
    split; [apply fdiv_pattern; auto|]. pose proof (fdiv_ok f Hf ToNearest _ _ Px Py) as Q. fold y in Q. rewrite Dx, Dy in Q. cbn [quotient_result xorb] in Q.
    rewrite EL in Q. assert (U : 0 < (8 * P - 1) * B) by nia. destruct (Z.eqb_spec ((8 * P - 1) * B) 0); [lia|].
    assert (V : 128 * (a * one f) <= 130 * (8 * P * P * B)) by (rewrite ET in EO; nia).
    assert (V2 : a * one f < 2 * P * ((8 * P - 1) * B)) by (clear - V P0 B0; nia).
    destruct (rounded_small f (a * one f) ((8 * P - 1) * B) _ (2 * P) Hf U ltac:(nia) V2 ltac:(fold M; lia) (fun k => small_number k) Q) as (n1 & En & _ & D).
    exists n1. split; auto.
  Qed.
  Lemma ok_end : pattern f (fdiv f ToNearest (lit_101 f) (finite_max_bits f)) /\
    exists n, decode f (fdiv f ToNearest (lit_101 f) (finite_max_bits f)) = DFin false n /\ P < n < 2 * P.
  Proof.
    destruct lit_101_ok as (Pl & a & Da & A). pose proof (one_pos f Hf) as O. destruct (end_ok _ a Pl Da ltac:(lia)) as (Pt & n & Dn & N). split; [exact Pt|].
    exists n. split; [exact Dn|]. destruct p_facts as (P0 & _ & ET & _ & EO & B0). rewrite ET in EO. clear - A O N P0 EO B0.
    assert (V1 : 129 * (8 * P * P) * B <= 128 * (a * one f)) by nia. assert (V2 : 128 * (a * one f) <= 130 * (8 * P * P) * B) by nia.
    set (v := a * one f) in *. clearbody v. clear A EO O.
    assert (W1 : 258 * (8 * P * P) - 128 * (8 * P - 1) <= 256 * n * (8 * P - 1)) by nia.
    assert (W2 : 256 * n * (8 * P - 1) <= 260 * (8 * P * P) + 128 * (8 * P - 1)) by nia. clear N V1 V2. nia.
  Qed.
  Lemma overflow_end : pattern f (fdiv f ToNearest (lit_099 f) (finite_max_bits f)) /\
    exists n, decode f (fdiv f ToNearest (lit_099 f) (finite_max_bits f)) = DFin false n /\ 3 * P <= 4 * n /\ n <= P.
  Proof.
    destruct lit_099_ok as (Pl & a & Da & A). pose proof (one_pos f Hf) as O. destruct (end_ok _ a Pl Da ltac:(lia)) as (Pt & n & Dn & N). split; [exact Pt|].
    exists n. split; [exact Dn|]. destruct p_facts as (P0 & _ & ET & _ & EO & B0). rewrite ET in EO. clear - A O N P0 EO B0.
    assert (V1 : 126 * (8 * P * P) * B <= 128 * (a * one f)) by nia. assert (V2 : 128 * (a * one f) <= 127 * (8 * P * P) * B) by nia.
    set (v := a * one f) in *. clearbody v. clear A EO O.
    assert (W1 : 252 * (8 * P * P) - 128 * (8 * P - 1) <= 256 * n * (8 * P - 1)) by nia.
    assert (W2 : 256 * n * (8 * P - 1) <= 254 * (8 * P * P) + 128 * (8 * P - 1)) by nia. clear N V1 V2. nia.
  Qed.

  Lemma threshold_value fuel : (Z.to_nat (fp f) <= fuel)%nat ->
    exists z, reciprocal_overflow_threshold f fuel = Some z /\ pattern f z /\ decode f z = DFin false (2 ^ (fp f - 3) + 1).
  Proof.
    intros F. assert (11 <= fp f) by apply Hw. destruct fuel as [|k]; [lia|]. destruct ok_end as (Pa & a & Da & A). destruct overflow_end as (Pb & b & Db & B1 & B2).
    apply (search_ok k _ _ a b); auto; try lia.
    assert (E : 2 * P <= 2 ^ Z.of_nat k). { unfold P. replace (2 * 2 ^ (fp f - 3)) with (2 ^ (fp f - 2)); [apply Z.pow_le_mono_r; lia|].
      replace (fp f - 2) with (Z.succ (fp f - 3)) by lia. apply Z.pow_succ_r. lia. }
    lia.
  Qed.
  Lemma threshold_right : is_threshold f (2 ^ (fp f - 3) + 1).
  Proof.
    fold P. destruct p_facts as (P0 & EM & ET & EL & EO & B0). split; [lia|]. split; [apply small_number; lia|]. intros n Hn N. rewrite ET in EO. unfold reciprocal.
    cbn [quotient_result xorb]. destruct (Z.eqb_spec n 0); [lia|]. rewrite EO. split.
    - intros L md z C. assert (E1 : 8 * P * P < (8 * P - 1) * n) by (clear - L P0; nia). assert (E2 : 8 * P * P * B < (8 * P - 1) * n * B) by (apply Z.mul_lt_mono_pos_r; auto).
      destruct z as [|s|s k]; cbn [correctly_rounded] in C; [contradiction| |destruct C as [-> _]; eauto]. exfalso. destruct C as [_ C]. rewrite EL, ET in C.
      destruct (direction_of md false); [lia|lia|]. assert (E3 : 8 * P * P * B < 8 * P * B * n) by nia. lia.
    - intros L z C. assert (E1 : (8 * P - 1 + 8 * P) * n * B <= 16 * P * P * B) by (apply Z.mul_le_mono_nonneg_r; [lia|]; clear - L P0 N; nia).
      destruct z as [|s|s k]; cbn [correctly_rounded direction_of] in C; [contradiction|destruct C as [-> _]; auto|]. exfalso. destruct C as (_ & x & _ & C & _).
      rewrite EL, ET in C. lia.
  Qed.
End Format.

(* there is only one threshold *)
Lemma threshold_unique f t t' : fmt_ok f -> is_threshold f t -> is_threshold f t' -> t = t'.
Proof.
  intros Hf. assert (A : forall t t', is_threshold f t -> is_threshold f t' -> ~ t < t').
  { intros u w (U0 & Fu & U) (W0 & Fw & W) L. destruct Fu as (x & Nx). assert (Fu : finite_number f u) by (exists x; exact Nx).
    destruct Nx as [Px Dx]. destruct (one_val f Hf) as (P1 & _). pose proof (fdiv_ok f Hf ToNearest _ _ P1 Px) as Q. rewrite (decode_one f Hf), Dx in Q.
    destruct (proj1 (U u Fu U0) (Z.le_refl u) ToNearest _ Q) as (k & E). pose proof (proj2 (W u Fu U0) L _ Q) as E'. congruence. }
  intros T T'. pose proof (A _ _ T T'). pose proof (A _ _ T' T). lia.
Qed.
