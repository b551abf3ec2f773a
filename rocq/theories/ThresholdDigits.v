From Coq Require Import ZArith List Bool Lia.
From Verif Require Import Scalar ScalarSpec ScalarProofs FloatSpec FloatRoundSpec FloatBits FloatProofs FloatRoundProofs FloatArithProofs FloatArith
  LdexpSpec LdexpProofs NarrowSpec Narrow NarrowProofs Threshold ThresholdSpec.
Local Open Scope Z_scope.

(* numbers of digits *)
Lemma digits_range : forall n, 1 <= n <= 128 -> 10 ^ digits10 n <= 2 ^ n < 10 ^ (digits10 n + 1).
Proof.
  assert (A : forallb (fun n => let n := Z.of_nat n in (10 ^ digits10 n <=? 2 ^ n) && (2 ^ n <? 10 ^ (digits10 n + 1))) (seq 1 128) = true) by (vm_compute; reflexivity).
  intros n Hn. rewrite forallb_forall in A. specialize (A (Z.to_nat n) ltac:(apply in_seq; lia)). cbv zeta in A. rewrite Z2Nat.id in A by lia.
  apply andb_prop in A. destruct A as [A1 A2]. lia.
Qed.

Lemma digits_strict : forall n, 4 <= n <= 128 -> 10 ^ digits10 n < 2 ^ n.
Proof.
  assert (A : forallb (fun n => let n := Z.of_nat n in 10 ^ digits10 n <? 2 ^ n) (seq 4 125) = true) by (vm_compute; reflexivity).
  intros n Hn. rewrite forallb_forall in A. specialize (A (Z.to_nat n) ltac:(apply in_seq; lia)). cbv zeta in A. rewrite Z2Nat.id in A by lia. lia.
Qed.
Lemma digits10_nonneg n : 0 <= n -> 0 <= digits10 n.
Proof. intros H. unfold digits10. apply Z.div_pos; lia. Qed.

Lemma integer_range l t v : std_type t -> has t v <-> finite_min l (AInt t) <= v <= finite_max l (AInt t).
Proof.
  intros Ht. rewrite has_range. assert (Hmin : finite_min l (AInt t) = lowest t).
  { unfold finite_min, lowest, digits. destruct (isg t) eqn:E; auto.
    replace (-2 * 2 ^ (iw t - 1 - 1)) with (- 2 ^ (iw t - 1)).
    - apply conv_same; auto. unfold has. rewrite E. assert (0 < 2 ^ (iw t - 1)) by (apply Z.pow_pos_nonneg; pose proof (iw_pos t Ht); lia). lia.
    - pose proof (iw_pos t Ht). replace (iw t - 1) with (Z.succ (iw t - 1 - 1)) at 1 by lia. rewrite Z.pow_succ_r by lia. ring. }
  assert (Hmax : finite_max l (AInt t) = highest t).
  { unfold finite_max. rewrite Hmin. unfold lowest, highest, Z.lnot. destruct (isg t) eqn:E.
    - replace (Z.pred (- - 2 ^ (iw t - 1))) with (2 ^ (iw t - 1) - 1) by lia. apply conv_same; auto. unfold has. rewrite E.
      assert (0 < 2 ^ (iw t - 1)) by (apply Z.pow_pos_nonneg; pose proof (iw_pos t Ht); lia). lia.
    - change (Z.pred (- 0)) with (-1). unfold conv. rewrite E. cbn [andb]. pose proof (iw_pos t Ht).
      assert (0 < 2 ^ iw t) by (apply Z.pow_pos_nonneg; lia). replace (-1) with (2 ^ iw t - 1 + (-1) * 2 ^ iw t) by ring. rewrite Z.mod_add by lia. apply Z.mod_small. lia. }
  rewrite Hmin, Hmax. reflexivity.
Qed.
Lemma std_digits l t : std_type t -> 7 <= digits l (AInt t) <= 64 /\ (forall v, 0 <= v -> has t v <-> v < 2 ^ digits l (AInt t)) /\ (forall v, has t v -> Z.abs v <= 2 ^ digits l (AInt t)).
Proof.
  intros Ht. unfold digits, has. destruct (isg t); (split; [unfold std_type in Ht; lia|]); split; intros v; try rewrite Z.sub_0_r; lia.
Qed.
Lemma digits10_ok l t : std_type t -> is_digits10 (has t) (digits10 (digits l (AInt t))).
Proof.
  intros Ht. destruct (std_digits l t Ht) as (R & H & _). set (n := digits l (AInt t)) in *. pose proof (digits_range n ltac:(lia)) as D.
  split; [apply digits10_nonneg; lia|]. split; [intros v V; apply H; lia|]. assert (0 < 2 ^ n) by (apply Z.pow_pos_nonneg; lia).
  exists (2 ^ n). split; [lia|]. rewrite H by lia. lia.
Qed.
Lemma max_digits10_ok l t : std_type t -> is_max_digits10 (has t) (max_digits10 false (digits l (AInt t))).
Proof.
  intros Ht. destruct (std_digits l t Ht) as (R & H & A). set (n := digits l (AInt t)) in *. pose proof (digits_range n ltac:(lia)) as D. pose proof (digits_strict n ltac:(lia)) as D'.
  unfold max_digits10. pose proof (digits10_nonneg n ltac:(lia)). split; [lia|]. split; [intros v V; specialize (A v V); lia|].
  assert (0 < 2 ^ n) by (apply Z.pow_pos_nonneg; lia). exists (2 ^ n - 1). rewrite H by lia. replace (digits10 n + 1 - 1) with (digits10 n) by lia. lia.
Qed.

(* neighbours *)
Lemma neighbours f m n : fmt_ok f -> finite_number f m -> finite_number f n -> m < n -> m < 2 ^ fp f * (n - m).
Proof.
  intros Hf Fm Fn L. destruct (finite_mag f Hf m Fm) as (b & Hb & ->). destruct (finite_mag f Hf n Fn) as (b' & Hb' & ->).
  pose proof (mb_pos f Hf) as Mp. assert (M0 : 0 < 2 ^ mb f) by (apply Z.pow_pos_nonneg; lia).
  assert (EF : 2 ^ fp f = 2 * 2 ^ mb f). { replace (fp f) with (Z.succ (mb f)) by (unfold mb; lia). apply Z.pow_succ_r. lia. }
  assert (BL : b < b'). { destruct (Z.lt_ge_cases b b'); auto. assert (mag f b' <= mag f b) by (apply (mag_le f Hf); lia). lia. }
  assert (NX : mag f (b + 1) <= mag f b') by (apply (mag_le f Hf); lia).
  pose proof (Z.div_mod b (2 ^ mb f) ltac:(lia)) as Q. pose proof (Z.mod_pos_bound b (2 ^ mb f) M0) as R. pose proof (Z.div_pos b (2 ^ mb f) ltac:(lia) M0) as Q0.
  set (q := b / 2 ^ mb f) in *. set (r := b mod 2 ^ mb f) in *. replace (2 ^ mb f * q + r) with (q * 2 ^ mb f + r) in Q by ring.
  destruct (Z.eq_dec q 0) as [Z0|Z0].
  - assert (E : mag f b = r) by (rewrite Q, Z0; apply (mag_small f); lia). rewrite E in *. clear - M0 EF R L. nia.
  - pose proof (mag_qr f Hf q r ltac:(lia) R) as E. rewrite <- Q in E. assert (E' : mag f (b + 1) = (2 ^ mb f + r + 1) * 2 ^ (q - 1)).
    { destruct (Z.eq_dec (r + 1) (2 ^ mb f)) as [T|T].
      - replace (b + 1) with ((q + 1) * 2 ^ mb f + 0) by lia. rewrite (mag_qr f Hf (q + 1) 0) by lia. replace (q + 1 - 1) with (Z.succ (q - 1)) by lia. rewrite Z.pow_succ_r by lia.
        replace (2 ^ mb f + r + 1) with (2 * 2 ^ mb f) by lia. ring.
      - replace (b + 1) with (q * 2 ^ mb f + (r + 1)) by lia. rewrite (mag_qr f Hf q (r + 1)) by lia. f_equal. lia. }
    assert (0 < 2 ^ (q - 1)) by (apply Z.pow_pos_nonneg; lia). set (w := 2 ^ (q - 1)) in *. assert (G : w <= mag f b' - mag f b) by lia. rewrite E in *. rewrite EF. clear - M0 R H G. nia.
Qed.
Lemma differentiates_if f d : fmt_ok f -> 2 ^ fp f < 10 ^ (d - 1) -> differentiates f d.
Proof.
  intros Hf D. assert (A : forall m n, finite_number f m -> finite_number f n -> forall c a b, 0 < a -> 0 < b -> 10 ^ (d - 1) <= c -> written m c a b -> written n c a b -> ~ m < n).
  { intros m n Fm Fn c a b Ha Hb Hc Wm Wn L. pose proof (neighbours f m n Hf Fm Fn L) as N. unfold written in *.
    assert (E1 : (n - m) * b <= a) by lia. assert (E2 : (2 * c - 1) * a <= 2 * m * b) by lia.
    assert (C : 2 ^ fp f + 1 <= c) by lia. assert (T : 0 < 2 ^ fp f) by (apply Z.pow_pos_nonneg; pose proof (mb_pos f Hf); unfold mb in *; lia). clear D Hc Wm Wn Hf Fm Fn. set (t := 2 ^ fp f) in *. clearbody t.
    assert (E3 : (2 * c - 1) * ((n - m) * b) <= (2 * c - 1) * a) by (apply Z.mul_le_mono_nonneg_l; lia).
    assert (E4 : (2 * c - 1) * (n - m) <= 2 * m). { apply (Z.mul_le_mono_pos_r _ _ b Hb). lia. }
    assert (E5 : (2 * t + 1) * (n - m) <= (2 * c - 1) * (n - m)) by (apply Z.mul_le_mono_nonneg_r; lia). lia. }
  intros m n Fm Fn c a b Ha Hb Hc Wm Wn. pose proof (A m n Fm Fn c a b Ha Hb Hc Wm Wn). pose proof (A n m Fn Fm c a b Ha Hb Hc Wn Wm). lia.
Qed.
Lemma float_max_digits10_ok f : fmt_ok f -> fp f <= 128 ->
  differentiates f (max_digits10 true (fp f)) /\ 10 ^ (max_digits10 true (fp f) - 2) <= 2 ^ fp f.
Proof.
  intros Hf Hp. pose proof (mb_pos f Hf) as M0. unfold mb in M0. pose proof (digits_range (fp f) ltac:(lia)) as D. unfold max_digits10. fold (digits10 (fp f)).
  split; [apply differentiates_if; auto; replace (2 + digits10 (fp f) - 1) with (digits10 (fp f) + 1) by lia; lia|].
  replace (2 + digits10 (fp f) - 2) with (digits10 (fp f)) by lia. lia.
Qed.
Lemma bool_digits10 l : ~ is_digits10 bool_value (digits10 (digits l ABool)).
Proof. intros (_ & H & _). specialize (H 2 ltac:(vm_compute; split; congruence)). destruct H; discriminate. Qed.
