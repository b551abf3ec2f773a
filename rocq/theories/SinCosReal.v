(* The operations of FloatArith on numbers as reals, rounding to nearest: the value
   of the result and its rounding error. *)
From Coq Require Import ZArith Reals QArith Qreals Lra Lia List Bool.
From Verif Require Import FloatSpec FloatRoundSpec FloatBits FloatArith FloatRound FloatProofs FloatArithProofs
  FloatRoundProofs HypotSpec Hypot HypotRound ScalarSpec Scalar Narrow NarrowProofs SinCos SinCosSpec SinCosProofs SinCosTop.
Import ListNotations.
Open Scope Z_scope.
Open Scope R_scope.

(* the bit pattern x is finite and stands for v *)
Definition rep (f : fmt) (x : Z) (v : R) : Prop :=
  pattern f x /\ exists z, fval f x = Some z /\ v = IZR z / IZR (one f).

(* bounds that hold for float and double *)
Definition tiny : R := / IZR (2 ^ 140).
Definition huge : R := IZR (2 ^ 100).
Record usual (f : fmt) : Prop := {
  us_ok : fmt_ok f;
  us_unit : (140 <= unit f)%Z;
  us_max : (2 ^ 100 * one f <= mag f (finite_max_bits f))%Z }.
Lemma usual32 : usual binary32.
Proof. split; [unfold fmt_ok; cbn; lia|cbn; lia|vm_compute; discriminate]. Qed.
Lemma usual64 : usual binary64.
Proof. split; [unfold fmt_ok; cbn; lia|cbn; lia|vm_compute; discriminate]. Qed.

Section Format.
  Variable f : fmt.
  Hypothesis Uf : usual f.
  Let Hf := us_ok f Uf.
  Definition ulp : R := / IZR (2 ^ fp f).
  Let O := IZR (one f).

  Lemma O_pos : 0 < O.
  Proof. apply IZR_lt. apply (one_pos f Hf). Qed.
  Lemma pow_split k : (0 <= k)%Z -> 0 < IZR (2 ^ k).
  Proof. intros. apply IZR_lt. apply Z.pow_pos_nonneg; lia. Qed.
  Lemma half_unit_tiny : / (2 * O) <= tiny.
  Proof.
    unfold tiny. apply Rinv_le_contravar; [apply IZR_lt; reflexivity|].
    pose proof O_pos. assert (IZR (2 ^ 140) <= O); [|lra]. apply IZR_le. unfold one. apply Z.pow_le_mono_r; [lia|apply (us_unit f Uf)].
  Qed.
  Lemma rep_unique x v w : rep f x v -> rep f x w -> v = w.
  Proof. intros (_ & z & E & ->) (_ & z' & E' & ->). congruence. Qed.
  Lemma rep_pattern x v : rep f x v -> pattern f x.
  Proof. intros [P _]. auto. Qed.
  Lemma rep_decode x v : rep f x v -> exists s m, decode f x = DFin s m /\ v = IZR (num s m) / O.
  Proof.
    intros (_ & z & E & ->). unfold fval in E. destruct (decode f x) as [|s|s m] eqn:D; try discriminate. injection E as <-. eauto.
  Qed.
  Lemma decode_rep x s m : pattern f x -> decode f x = DFin s m -> rep f x (IZR (num s m) / O).
  Proof. intros P D. split; auto. exists (num s m). unfold fval. rewrite D. auto. Qed.

  Lemma round_bits_nearest s n k : round_bits f ToNearest s n k = round_bits f ToNearest false n k.
  Proof. reflexivity. Qed.

  (* v / 2^k units, rounded *)
  Lemma fround_rep z v k : (0 <= k)%Z -> Rabs (IZR v / IZR (2 ^ k) / O) <= huge ->
    exists r, rep f (fround f ToNearest z v k) r /\ Rabs (r - IZR v / IZR (2 ^ k) / O) <= ulp * Rabs (IZR v / IZR (2 ^ k) / O) + tiny.
  Proof.
    intros Hk B. pose proof O_pos as HO. pose proof (pow_split k Hk) as HK. pose proof half_unit_tiny as HT.
    assert (HU : 0 < ulp). { apply Rinv_0_lt_compat. apply pow_split. destruct Hf as [? _]. lia. }
    assert (TP : 0 < tiny) by (apply Rinv_0_lt_compat, IZR_lt; reflexivity).
    unfold fround. destruct (Z.eqb_spec v 0) as [->|N].
    - exists 0. split.
      + replace 0 with (IZR (num z 0) / O) by (destruct z; cbn [num]; unfold Rdiv; rewrite ?Z.opp_0, Rmult_0_l; auto).
        apply decode_rep.
        * apply (with_sign_pattern f Hf). split; [lia|]. apply Z.pow_pos_nonneg; [lia|]. destruct Hf as (? & ? & ?). unfold eb in *. lia.
        * rewrite (decode_with_sign f Hf) by (pose proof (inf_pos f Hf); lia). rewrite (mag_0 f Hf). auto.
      + unfold Rdiv. rewrite !Rmult_0_l, Rminus_0_r, Rabs_R0. lra.
    - set (s := (v <? 0)%Z). rewrite round_bits_nearest. set (n := Z.abs v).
      assert (Hn : (0 <= n)%Z) by (unfold n; lia).
      assert (EA : Rabs (IZR v / IZR (2 ^ k) / O) = IZR n / IZR (2 ^ k) / O).
      { unfold Rdiv. rewrite !Rabs_mult, Rabs_Zabs. fold n. rewrite !Rabs_pos_eq; auto; apply Rlt_le, Rinv_0_lt_compat; auto. }
      rewrite EA in *.
      assert (L : (n <= mag f (finite_max_bits f) * 2 ^ k)%Z).
      { apply Z.le_trans with (2 ^ 100 * one f * 2 ^ k)%Z; [|apply Z.mul_le_mono_nonneg_r; [apply Z.pow_nonneg; lia|apply (us_max f Uf)]].
        apply le_IZR. rewrite !mult_IZR. fold O huge.
        apply Rmult_le_compat_r with (r := O * IZR (2 ^ k)) in B; [|nra].
        replace (IZR n / IZR (2 ^ k) / O * (O * IZR (2 ^ k))) with (IZR n) in B by (field; lra). lra. }
      destruct (round_err f Hf ToNearest n k Hk Hn L) as [[F0 F1] E]. set (r := round_bits f ToNearest false n k) in *.
      exists (IZR (num s (mag f r)) / O). split.
      + apply decode_rep; [|apply (decode_with_sign f Hf); auto].
        apply (with_sign_pattern f Hf). pose proof (inf_lt f Hf). lia.
      + assert (V : IZR v = IZR (num s n)).
        { unfold s, n. destruct (Z.ltb_spec v 0); cbn [num]; f_equal; lia. }
        assert (ER : Rabs (IZR (num s (mag f r)) / O - IZR v / IZR (2 ^ k) / O) = Rabs (IZR (mag f r * 2 ^ k - n)) / (IZR (2 ^ k) * O)).
        { rewrite V, minus_IZR, mult_IZR.
          replace (IZR (num s (mag f r)) / O - IZR (num s n) / IZR (2 ^ k) / O) with ((IZR (num s (mag f r)) * IZR (2 ^ k) - IZR (num s n)) / (IZR (2 ^ k) * O)) by (field; lra).
          unfold Rdiv at 1. rewrite Rabs_mult. rewrite (Rabs_pos_eq (/ _)); [|apply Rlt_le, Rinv_0_lt_compat; nra]. unfold Rdiv. f_equal.
          destruct s; cbn [num]; auto. rewrite !opp_IZR. rewrite <- Rabs_Ropp. f_equal. ring. }
        rewrite ER, Rabs_Zabs. clear ER V EA B.
        set (d := Z.abs (mag f r * 2 ^ k - n)) in *.
        rewrite (P_val f Hf ToNearest) in E. cbn [nearest] in E.
        assert (E2 : (2 ^ fp f * d <= n + 2 ^ mb f * 2 ^ k)%Z).
        { replace (2 ^ fp f)%Z with (2 * 2 ^ mb f)%Z; [|unfold mb; rewrite <- Z.pow_succ_r by (destruct Hf as [? _]; lia); f_equal; lia].
          pose proof (Z.pow_nonneg 2 (mb f) ltac:(lia)). pose proof (Z.pow_nonneg 2 k ltac:(lia)).
          eapply Z.le_trans; [exact E|]. apply Z.max_lub; nia. }
        apply IZR_le in E2. rewrite plus_IZR, !mult_IZR in E2.
        assert (P2 : IZR (2 ^ fp f) = 2 * IZR (2 ^ mb f)).
        { rewrite <- mult_IZR. f_equal. unfold mb. rewrite <- Z.pow_succ_r by (destruct Hf as [? _]; lia). f_equal; lia. }
        assert (HP : 0 < IZR (2 ^ fp f)) by (apply pow_split; destruct Hf as [? _]; lia).
        unfold ulp. set (p := IZR (2 ^ fp f)) in *. set (K := IZR (2 ^ k)) in *. set (M := IZR (2 ^ mb f)) in *.
        apply Rle_trans with (/ p * (IZR n / K / O) + / (2 * O)); [|lra].
        apply Rmult_le_reg_l with (p * (K * O)); [apply Rmult_lt_0_compat; nra|].
        replace (p * (K * O) * (IZR d / (K * O))) with (p * IZR d) by (field; lra).
        replace (p * (K * O) * (/ p * (IZR n / K / O) + / (2 * O))) with (IZR n + (p / 2) * K) by (field; lra).
        replace (p / 2) with M by lra. lra.
  Qed.

  Lemma unit_IZR : IZR (2 ^ unit f) = O. Proof. reflexivity. Qed.
  Lemma fmul_rep x y a b : rep f x a -> rep f y b -> Rabs (a * b) <= huge ->
    exists r, rep f (fmul f ToNearest x y) r /\ Rabs (r - a * b) <= ulp * Rabs (a * b) + tiny.
  Proof.
    intros Hx Hy B. pose proof O_pos as HO. destruct (rep_decode _ _ Hx) as (s & m & Dx & ->). destruct (rep_decode _ _ Hy) as (s' & m' & Dy & ->).
    unfold fmul. rewrite Dx, Dy.
    assert (E : IZR (num s m) / O * (IZR (num s' m') / O) = IZR (num s m * num s' m') / IZR (2 ^ unit f) / O).
    { rewrite mult_IZR, unit_IZR. field. lra. }
    rewrite E in *. apply fround_rep; auto. apply (unit_nonneg f Hf).
  Qed.
  Lemma fadd_rep x y a b : rep f x a -> rep f y b -> Rabs (a + b) <= huge ->
    exists r, rep f (fadd f ToNearest x y) r /\ Rabs (r - (a + b)) <= ulp * Rabs (a + b) + tiny.
  Proof.
    intros Hx Hy B. pose proof O_pos as HO. destruct (rep_decode _ _ Hx) as (s & m & Dx & ->). destruct (rep_decode _ _ Hy) as (s' & m' & Dy & ->).
    unfold fadd. rewrite Dx, Dy.
    assert (E : IZR (num s m) / O + IZR (num s' m') / O = IZR (num s m + num s' m') / IZR (2 ^ 0) / O).
    { rewrite plus_IZR. change (IZR (2 ^ 0)) with 1. field. lra. }
    rewrite E in *. apply fround_rep; auto. lia.
  Qed.
  Lemma ffma_rep x y z a b c : rep f x a -> rep f y b -> rep f z c -> Rabs (a * b + c) <= huge ->
    exists r, rep f (ffma f ToNearest x y z) r /\ Rabs (r - (a * b + c)) <= ulp * Rabs (a * b + c) + tiny.
  Proof.
    intros Hx Hy Hz B. pose proof O_pos as HO. destruct (rep_decode _ _ Hx) as (s & m & Dx & ->). destruct (rep_decode _ _ Hy) as (s' & m' & Dy & ->).
    destruct (rep_decode _ _ Hz) as (s'' & m'' & Dz & ->).
    unfold ffma. rewrite Dx, Dy, Dz.
    assert (E : IZR (num s m) / O * (IZR (num s' m') / O) + IZR (num s'' m'') / O = IZR (num s m * num s' m' + num s'' m'' * 2 ^ unit f) / IZR (2 ^ unit f) / O).
    { rewrite plus_IZR, !mult_IZR, unit_IZR. field. lra. }
    rewrite E in *. apply fround_rep; auto. apply (unit_nonneg f Hf).
  Qed.
  Lemma fneg_rep x a : rep f x a -> rep f (fneg f x) (- a).
  Proof.
    intros (P & z & E & ->). split; [apply (fneg_pattern f Hf); auto|]. exists (- z)%Z. split; [apply (fval_neg f Hf); auto|].
    rewrite opp_IZR. field. pose proof O_pos. unfold O in *. lra.
  Qed.
  Lemma fsub_rep x y a b : rep f x a -> rep f y b -> Rabs (a - b) <= huge ->
    exists r, rep f (fsub f ToNearest x y) r /\ Rabs (r - (a - b)) <= ulp * Rabs (a - b) + tiny.
  Proof. intros Hx Hy B. unfold fsub. apply (fadd_rep x (fneg f y) a (- b)); auto. apply fneg_rep; auto. Qed.

  (* the quotient lies within half an eighth of a unit of the number that is rounded *)
  Lemma fdiv_rep x y a b : rep f x a -> rep f y b -> b <> 0 -> Rabs (a / b) + 1 <= huge ->
    exists r, rep f (fdiv f ToNearest x y) r /\ Rabs (r - a / b) <= ulp * Rabs (a / b) + 3 * tiny.
  Proof.
    intros Hx Hy NZ B. pose proof O_pos as HO. pose proof half_unit_tiny as HT.
    assert (HU : 0 < ulp <= 1).
    { split; [apply Rinv_0_lt_compat, pow_split; destruct Hf as [? _]; lia|]. unfold ulp. rewrite <- Rinv_1.
      apply Rinv_le_contravar; [lra|]. apply IZR_le. destruct Hf as [? _]. pose proof (Z.pow_pos_nonneg 2 (fp f) ltac:(lia) ltac:(lia)). lia. }
    assert (PX : exists s m, decode f x = DFin s m /\ a = IZR (num s m) / O /\ (0 <= m)%Z).
    { destruct (rep_decode _ _ Hx) as (s & m & Dx & ->). destruct (decode_fin f Hf x s m (rep_pattern _ _ Hx) Dx) as (n & Hn & -> & _).
      exists s, (mag f n). repeat split; auto. apply (mag_nonneg f Hf). lia. }
    assert (PY : exists s m, decode f y = DFin s m /\ b = IZR (num s m) / O /\ (0 < m)%Z).
    { destruct (rep_decode _ _ Hy) as (s & m & Dy & ->). destruct (decode_fin f Hf y s m (rep_pattern _ _ Hy) Dy) as (n & Hn & -> & _).
      exists s, (mag f n). repeat split; auto. assert (0 <= mag f n)%Z by (apply (mag_nonneg f Hf); lia).
      destruct (Z.eq_dec (mag f n) 0) as [E|]; [|lia]. exfalso. apply NZ. rewrite E. destruct s; cbn [num]; unfold Rdiv; rewrite ?Z.opp_0, Rmult_0_l; auto. }
    destruct PX as (s & m & Dx & -> & Hm). destruct PY as (s' & n & Dy & -> & Hn).
    unfold fdiv. rewrite Dx, Dy. destruct (Z.eqb_spec n 0) as [|_]; [lia|]. cbv zeta.
    set (p := (4 * (m * 2 ^ unit f))%Z). set (g := (p / n)%Z). set (v := if (g * n =? p)%Z then (2 * g)%Z else (2 * g + 1)%Z).
    set (w := xorb s s').
    assert (Q : Rabs (IZR v / 8 / O - IZR m / IZR n) <= / (8 * O)).
    { pose proof (Z.div_mod p n ltac:(lia)) as DM. pose proof (Z.mod_pos_bound p n Hn) as DB. fold g in DM.
      assert (EP : IZR p = 4 * IZR m * O) by (unfold p; rewrite !mult_IZR, unit_IZR; ring).
      assert (Hn' : 0 < IZR n) by (apply IZR_lt; auto).
      assert (X : (Z.abs (v * n - 2 * p) <= n)%Z) by (unfold v; destruct (Z.eqb_spec (g * n) p); nia).
      apply IZR_le in X. rewrite <- Rabs_Zabs, minus_IZR, !mult_IZR, EP in X.
      replace (IZR v / 8 / O - IZR m / IZR n) with ((IZR v * IZR n - 2 * (4 * IZR m * O)) * / (8 * O * IZR n)) by (field; lra).
      rewrite Rabs_mult, (Rabs_pos_eq (/ _)); [|apply Rlt_le, Rinv_0_lt_compat; apply Rmult_lt_0_compat; lra].
      apply Rmult_le_reg_r with (8 * O * IZR n); [apply Rmult_lt_0_compat; lra|].
      rewrite Rmult_assoc, Rinv_l, Rmult_1_r by (apply Rgt_not_eq, Rmult_lt_0_compat; lra).
      replace (/ (8 * O) * (8 * O * IZR n)) with (IZR n) by (field; lra). auto. }
    assert (EQ : IZR (num s m) / O / (IZR (num s' n) / O) = IZR (num w 1) * (IZR m / IZR n)).
    { assert (Hn' : 0 < IZR n) by (apply IZR_lt; auto). unfold w. destruct s, s'; cbn [num xorb]; rewrite ?opp_IZR; field; lra. }
    assert (EV : IZR (num w v) / IZR (2 ^ 3) / O = IZR (num w 1) * (IZR v / 8 / O)).
    { change (IZR (2 ^ 3)) with 8. destruct w; cbn [num]; rewrite ?opp_IZR; field; lra. }
    assert (W1 : Rabs (IZR (num w 1)) = 1) by (destruct w; cbn [num]; rewrite ?opp_IZR, ?Rabs_Ropp; apply Rabs_pos_eq; lra).
    assert (D1 : Rabs (IZR (num w v) / IZR (2 ^ 3) / O - IZR (num s m) / O / (IZR (num s' n) / O)) <= / (8 * O)).
    { rewrite EV, EQ, <- Rmult_minus_distr_l, Rabs_mult, W1, Rmult_1_l. auto. }
    rewrite EQ in *. set (q := IZR (num w 1) * (IZR m / IZR n)) in *.
    assert (D2 : / (8 * O) <= tiny / 4). { replace (/ (8 * O)) with (/ (2 * O) / 4) by (field; lra). lra. }
    assert (T1 : tiny <= 1). { unfold tiny. rewrite <- Rinv_1. apply Rinv_le_contravar; [lra|apply IZR_le; vm_compute; discriminate]. }
    assert (D3 : Rabs (IZR (num w v) / IZR (2 ^ 3) / O) <= Rabs q + tiny / 4).
    { replace (IZR (num w v) / IZR (2 ^ 3) / O) with ((IZR (num w v) / IZR (2 ^ 3) / O - q) + q) by ring.
      eapply Rle_trans; [apply Rabs_triang|]. lra. }
    assert (TP : 0 < tiny) by (apply Rinv_0_lt_compat, IZR_lt; reflexivity).
    destruct (fround_rep w (num w v) 3 ltac:(lia)) as (r & Hr & E); [lra|].
    exists r. split; auto. replace (r - q) with ((r - IZR (num w v) / IZR (2 ^ 3) / O) + (IZR (num w v) / IZR (2 ^ 3) / O - q)) by ring.
    eapply Rle_trans; [apply Rabs_triang|]. assert (ulp * Rabs (IZR (num w v) / IZR (2 ^ 3) / O) <= ulp * (Rabs q + tiny / 4)) by (apply Rmult_le_compat_l; lra).
    nra.
  Qed.

  (* nearbyint *)
  Lemma nearbyint_rep x a : rep f x a -> exists n, rep f (fround_to_int f ToNearest x) (IZR n) /\ Rabs (IZR n - a) <= / 2.
  Proof.
    intros Hx. pose proof O_pos as HO. destruct (rep_decode _ _ Hx) as (s & m & D & ->).
    destruct (decode_fin f Hf x s m (rep_pattern _ _ Hx) D) as (n & Hn & Em & _). assert (Hm : (0 <= m)%Z) by (subst; apply (mag_nonneg f Hf); lia).
    destruct (fround_to_int_ok f Hf ToNearest x (rep_pattern _ _ Hx)) as [P R]. rewrite D in R.
    exists (num s (round_int ToNearest s m (unit f))). split.
    - replace (IZR (num s (round_int ToNearest s m (unit f)))) with (IZR (num s (round_int ToNearest s m (unit f) * 2 ^ unit f)) / O).
      + apply decode_rep; auto.
      + replace (num s (round_int ToNearest s m (unit f) * 2 ^ unit f)) with (num s (round_int ToNearest s m (unit f)) * 2 ^ unit f)%Z by (destruct s; cbn [num]; lia).
        rewrite mult_IZR, unit_IZR. field. lra.
    - destruct (round_int_spec ToNearest s m (unit f) (unit_nonneg f Hf) Hm) as [S _]. set (k := num s (round_int ToNearest s m (unit f))) in *.
      apply IZR_le in S. rewrite mult_IZR, <- Rabs_Zabs, minus_IZR, mult_IZR, unit_IZR in S.
      replace (IZR k - IZR (num s m) / O) with (- ((IZR (num s m) - IZR k * O) * / O)) by (field; lra).
      rewrite Rabs_Ropp, Rabs_mult, (Rabs_pos_eq (/ O)) by (apply Rlt_le, Rinv_0_lt_compat; auto).
      apply Rmult_le_reg_r with O; auto. rewrite Rmult_assoc, Rinv_l by lra. lra.
  Qed.
  (* conversion of an integral value to int *)
  Lemma to_int_rep ub x n : rep f x (IZR n) -> (- 2 ^ 31 <= n < 2 ^ 31)%Z -> to_int ub f x = n.
  Proof.
    intros Hx B. pose proof O_pos as HO. destruct (rep_decode _ _ Hx) as (s & m & D & E).
    assert (EN : (num s m = n * one f)%Z).
    { apply eq_IZR. rewrite mult_IZR. fold O. rewrite E. field. lra. }
    pose proof (one_pos f Hf) as OP.
    assert (EM : (num s (m / one f) = n)%Z).
    { destruct s; cbn [num] in *.
      - replace m with ((- n) * one f)%Z by lia. rewrite Z.div_mul by lia. lia.
      - rewrite EN, Z.div_mul by lia. auto. }
    unfold to_int, fto_int. rewrite D, EM. cbn [isg int_t iw]. 
    replace ((- 2 ^ (32 - 1) <=? n) && (n <? 2 ^ (32 - 1)))%Z with true; auto. symmetry. apply andb_true_iff. change (32 - 1)%Z with 31%Z. split; lia.
  Qed.

  (* a product of an integer and a constant that fits *)
  Lemma fmul_exact_scaled x y n i m k : rep f x (IZR (n * 2 ^ i)) -> rep f y (IZR m / IZR (2 ^ k)) -> (0 <= i <= k)%Z -> (k <= unit f)%Z ->
    (Z.abs (n * m) <= 2 ^ fp f)%Z -> rep f (fmul f ToNearest x y) (IZR (n * 2 ^ i * m) / IZR (2 ^ k)).
  Proof.
    intros Hx Hy Hi Hk' B. assert (Hk : (0 <= k <= unit f)%Z) by lia. pose proof O_pos as HO. pose proof (pow_split k ltac:(lia)) as HK.
    destruct (rep_decode _ _ Hx) as (s & a & Dx & Ex). destruct (rep_decode _ _ Hy) as (s' & b & Dy & Ey).
    assert (EU : O = IZR (2 ^ k) * IZR (2 ^ (unit f - k))).
    { unfold O, one. rewrite <- mult_IZR, <- Z.pow_add_r by lia. do 2 f_equal. lia. }
    assert (Nx : (num s a = n * 2 ^ i * one f)%Z).
    { apply eq_IZR. rewrite mult_IZR. fold O. rewrite Ex. field. lra. }
    assert (Ny : (num s' b = m * 2 ^ (unit f - k))%Z).
    { apply eq_IZR. rewrite mult_IZR. apply (Rmult_eq_reg_r (/ O)); [|apply Rinv_neq_0_compat; lra].
      fold (IZR (num s' b) / O). rewrite <- Ey, EU. field. pose proof (pow_split (unit f - k) ltac:(lia)). lra. }
    assert (PE : (2 * 2 ^ mb f = 2 ^ fp f)%Z).
    { unfold mb. rewrite <- Z.pow_succ_r by (destruct Hf as [? _]; lia). f_equal. lia. }
    assert (SC : (n * 2 ^ i * m * 2 ^ (unit f - k) = n * m * 2 ^ (i + (unit f - k)))%Z) by (rewrite Z.pow_add_r by lia; ring).
    assert (RP : repr f (n * 2 ^ i * m * 2 ^ (unit f - k))).
    { rewrite SC. apply (repr_scaled f Hf (Z.abs (n * m)) (i + (unit f - k))); try lia.
      - rewrite Z.abs_mul, (Z.abs_eq (2 ^ _)) by (apply Z.pow_nonneg; lia).
        eapply Z.le_lt_trans; [|apply (pow_lt_inf f Hf (fp f + unit f))].
        + rewrite (Z.pow_add_r 2 (fp f)) by (destruct Hf as [? _]; lia). apply Z.mul_le_mono_nonneg; try lia. apply Z.pow_le_mono_r; lia.
        + destruct Hf as (? & ? & ?). pose proof (us_unit f Uf). unfold unit, mb in *. lia. }
    unfold fmul. rewrite Dx, Dy, Nx, Ny. set (z := xorb s s').
    assert (EV : (n * 2 ^ i * one f * (m * 2 ^ (unit f - k)) = n * 2 ^ i * m * 2 ^ (unit f - k) * 2 ^ unit f)%Z) by (unfold one; ring).
    pose proof (fround_exact f Hf ToNearest z _ (unit f) _ (unit_nonneg f Hf) EV RP) as FE.
    apply decode_rep in FE; [|apply (fround_pattern f Hf), (unit_nonneg f Hf)].
    set (w := (n * 2 ^ i * m * 2 ^ (unit f - k))%Z) in *. set (v := (n * 2 ^ i * one f * (m * 2 ^ (unit f - k)))%Z) in *.
    replace (IZR (n * 2 ^ i * m) / IZR (2 ^ k)) with (IZR (num (if (v =? 0)%Z then z else (w <? 0)%Z) (Z.abs w)) / O); auto.
    replace (num (if (v =? 0)%Z then z else (w <? 0)%Z) (Z.abs w)) with w.
    - unfold w. rewrite (mult_IZR (n * 2 ^ i * m)), EU. field. pose proof (pow_split (unit f - k) ltac:(lia)). lra.
    - destruct (Z.eqb_spec v 0) as [V0|V0].
      + assert (W0 : w = 0%Z). { pose proof (Z.pow_pos_nonneg 2 (unit f) ltac:(lia) ltac:(lia)). nia. } rewrite W0. destruct z; reflexivity.
      + destruct (Z.ltb_spec w 0); cbn [num]; lia.
  Qed.
  Lemma fmul_exact_rep x y n m k : rep f x (IZR n) -> rep f y (IZR m / IZR (2 ^ k)) -> (0 <= k <= unit f)%Z ->
    (Z.abs (n * m) <= 2 ^ fp f)%Z -> rep f (fmul f ToNearest x y) (IZR (n * m) / IZR (2 ^ k)).
  Proof.
    intros Hx Hy Hk B. replace (n * m)%Z with (n * 2 ^ 0 * m)%Z by ring. apply fmul_exact_scaled; auto; try lia.
    rewrite Z.mul_1_r. auto.
  Qed.

  Lemma fabs_rep x a : pattern f x -> rep f x a -> rep f (fabs_lane f x) (Rabs a).
  Proof.
    intros P Hx. pose proof O_pos as HO. destruct (rep_decode _ _ Hx) as (s & m & D & ->). pose proof (decode_fabs f Hf x) as DA. rewrite D in DA.
    destruct (decode_fin f Hf x s m P D) as (n & Hn & Em & _). assert (Hm : (0 <= m)%Z) by (subst; apply (mag_nonneg f Hf); lia).
    replace (Rabs (IZR (num s m) / O)) with (IZR (num false m) / O); [apply decode_rep; auto; apply (fabs_pattern f Hf)|].
    unfold Rdiv. rewrite Rabs_mult, (Rabs_pos_eq (/ O)) by (apply Rlt_le, Rinv_0_lt_compat; auto). f_equal.
    destruct s; cbn [num]; rewrite ?opp_IZR, ?Rabs_Ropp, Rabs_pos_eq; auto; apply IZR_le; auto.
  Qed.
  Lemma flt_rep x y a b : rep f x a -> rep f y b -> flt f x y = true <-> a < b.
  Proof.
    intros (_ & z & Ez & ->) (_ & w & Ew & ->). rewrite (flt_fin f x y z w) by auto. pose proof O_pos as HO. fold O.
    rewrite Z.ltb_lt. split; intros L.
    - apply Rmult_lt_compat_r; [apply Rinv_0_lt_compat; auto|]. apply IZR_lt; auto.
    - apply lt_IZR. apply Rmult_lt_reg_r with (/ O); auto. apply Rinv_0_lt_compat; auto.
  Qed.
  (* the sum of maximum and minimum is the sum of the numbers *)
  Lemma max_min_rep x y a b : rep f x a -> rep f y b ->
    (rep f (fmax_lane f x y) a /\ rep f (fmin_lane f x y) b) \/ (rep f (fmax_lane f x y) b /\ rep f (fmin_lane f x y) a).
  Proof.
    intros Hx Hy. assert (G : fgt f x y = flt f y x).
    { destruct Hx as (_ & z & Ez & _), Hy as (_ & w & Ew & _). rewrite (flt_fin f y x w z), (fgt_fin f x y z w) by auto. reflexivity. }
    unfold fmax_lane, fmin_lane. rewrite G.
    destruct (flt f y x) eqn:L1, (flt f x y) eqn:L2; auto.
    - apply (flt_rep y x b a) in L1; auto. apply (flt_rep x y a b) in L2; auto. lra.
    - assert (E : a = b).
      { destruct (Rtotal_order a b) as [L|[->|L]]; auto.
        - apply (flt_rep x y a b) in L; auto. congruence.
        - apply (flt_rep y x b a) in L; auto. congruence. }
      subst. auto.
  Qed.
End Format.

Lemma widen_rep x a : rep binary32 x a -> rep binary64 (fconv binary32 binary64 ToNearest x) a.
Proof.
  intros Hx. destruct (rep_decode _ _ _ Hx) as (s & m & D & ->).
  destruct (fconv_included binary32 binary64 b32 b64 ToNearest x included_fd (rep_pattern _ _ _ Hx)) as [P DC]. rewrite D in DC.
  pose proof (decode_rep binary64 _ _ _ P DC) as R.
  replace (IZR (num s m) / IZR (one binary32)) with (IZR (num s (m * 2 ^ (unit binary64 - unit binary32))) / IZR (one binary64)); auto.
  replace (num s (m * 2 ^ (unit binary64 - unit binary32))) with (num s m * 2 ^ (unit binary64 - unit binary32))%Z by (destruct s; cbn [num]; lia).
  rewrite mult_IZR. replace (IZR (one binary64)) with (IZR (one binary32) * IZR (2 ^ (unit binary64 - unit binary32))) by (rewrite <- mult_IZR; reflexivity).
  assert (0 < IZR (one binary32)) by (apply IZR_lt; reflexivity). assert (0 < IZR (2 ^ (unit binary64 - unit binary32))) by (apply IZR_lt; reflexivity).
  field. lra.
Qed.
Lemma narrow_rep x a : rep binary64 x a -> Rabs a <= huge ->
  exists r, rep binary32 (fconv binary64 binary32 ToNearest x) r /\ Rabs (r - a) <= ulp binary32 * Rabs a + tiny.
Proof.
  intros Hx B. destruct (rep_decode _ _ _ Hx) as (s & m & D & ->). unfold fconv. rewrite D.
  replace (unit binary64 <=? unit binary32)%Z with false by reflexivity.
  assert (E : IZR (num s m) / IZR (one binary64) = IZR (num s m) / IZR (2 ^ (unit binary64 - unit binary32)) / IZR (one binary32)).
  { replace (IZR (one binary64)) with (IZR (one binary32) * IZR (2 ^ (unit binary64 - unit binary32))) by (rewrite <- mult_IZR; reflexivity).
    assert (0 < IZR (one binary32)) by (apply IZR_lt; reflexivity). assert (0 < IZR (2 ^ (unit binary64 - unit binary32))) by (apply IZR_lt; reflexivity).
    field. lra. }
  rewrite E in *. apply (fround_rep binary32 usual32); auto. vm_compute. discriminate.
Qed.
