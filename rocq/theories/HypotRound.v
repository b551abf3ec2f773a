(* Rounding errors of single operations on nonnegative numbers, for hypot. *)
From Coq Require Import ZArith List Bool Lia Psatz.
From Verif Require Import Prelude X86Lanes FloatSpec FloatRoundSpec FloatBits FloatArith FloatRound FloatProofs FloatArithProofs
  FloatRoundProofs HypotSpec Hypot.
Import ListNotations.
Open Scope Z_scope.

Section Format.
  Variable f : fmt.
  Hypothesis Hf : fmt_ok f.
  Let M := 2 ^ mb f.
  Let U := 2 ^ unit f.
  Let Max := mag f (finite_max_bits f).
  Let HM : 2 <= M := pow_mb_pos f Hf.

  (* bit patterns of nonnegative finite numbers *)
  Definition fin (x : Z) : Prop := 0 <= x < inf_bits f.

  Lemma U_pos : 0 < U. Proof. apply (one_pos f Hf). Qed.
  Lemma unit_nonneg : 0 <= unit f. Proof. pose proof (unit_pos f Hf). pose proof (mb_pos f Hf). lia. Qed.

  Lemma fin_decode x : fin x -> decode f x = DFin false (mag f x).
  Proof. intros H. change x with (with_sign f false x) at 1. apply (decode_with_sign f Hf); auto. Qed.
  Lemma fin_mag_nonneg x : fin x -> 0 <= mag f x.
  Proof. intros H. apply (mag_nonneg f Hf). destruct H; auto. Qed.
  Lemma fin_max : fin (finite_max_bits f).
  Proof. unfold fin. rewrite (max_val f). pose proof (inf_pos f Hf). lia. Qed.
  Lemma fin_le_max x : fin x -> mag f x <= Max.
  Proof. intros [A B]. apply (mag_le f Hf); auto. rewrite (max_val f). lia. Qed.
  Lemma fin_pattern x : fin x -> pattern f x.
  Proof. intros [A B]. unfold pattern. rewrite (pow_fw f Hf). pose proof (inf_lt f Hf). lia. Qed.
  Lemma fin_0 : fin 0. Proof. unfold fin. pose proof (inf_pos f Hf). lia. Qed.
  Lemma mag_0 : mag f 0 = 0. Proof. unfold mag. fold M. destruct (Z.ltb_spec 0 M); lia. Qed.
  Lemma max_num_val : Max = max_num f.
  Proof.
    unfold Max, finite_max_bits, max_num. fold M. pose proof (pow_eb_pos f Hf).
    rewrite (mag_qr f Hf) by (fold M; lia). fold M. f_equal; [|f_equal; lia].
    unfold M, mb. replace (fp f) with (1 + (fp f - 1)) at 3 by lia. rewrite Z.pow_add_r by (destruct Hf; lia). lia.
  Qed.

  (* the distance to the next number *)
  Lemma gap a : 0 <= a -> mag f (a + 1) - mag f a = 1 /\ a < M \/
    (0 < mag f (a + 1) - mag f a /\ (mag f (a + 1) - mag f a) * M <= mag f a /\ M <= a).
  Proof.
    intros Ha. destruct (Z_lt_le_dec a M).
    - left. split; auto. rewrite (mag_small f a) by (fold M; lia).
      destruct (Z.eq_dec (a + 1) M) as [E|].
      + rewrite E. replace M with (1 * M + 0) by lia. rewrite (mag_qr f Hf) by (fold M; lia). fold M.
        change (2 ^ (1 - 1)) with 1. lia.
      + rewrite (mag_small f (a + 1)) by (fold M; lia). lia.
    - right. pose proof (Z.div_mod a M ltac:(lia)) as E. pose proof (Z.mod_pos_bound a M ltac:(lia)) as B.
      assert (1 <= a / M) by (apply Z.div_le_lower_bound; lia).
      set (q := a / M) in *. set (r := a mod M) in *.
      assert (G : 0 < 2 ^ (q - 1)) by (apply Z.pow_pos_nonneg; lia).
      replace a with (q * M + r) by lia. rewrite (mag_qr f Hf) by (fold M; lia). fold M.
      destruct (Z.eq_dec (r + 1) M) as [E1|].
      + replace (q * M + r + 1) with ((q + 1) * M + 0) by lia. rewrite (mag_qr f Hf) by (fold M; lia). fold M.
        replace (q + 1 - 1) with (1 + (q - 1)) by lia. rewrite Z.pow_add_r by lia. change (2 ^ 1) with 2. nia.
      + replace (q * M + r + 1) with (q * M + (r + 1)) by lia. rewrite (mag_qr f Hf) by (fold M; lia). fold M. nia.
  Qed.

  Variable md : rmode.
  Let P := precision f md.
  Lemma P_val : P = if nearest md then 2 * M else M.
  Proof.
    unfold P, precision, M, mb. destruct (nearest md); auto.
    replace (fp f) with (1 + (fp f - 1)) at 1 by lia. rewrite Z.pow_add_r by (destruct Hf; lia). reflexivity.
  Qed.
  Lemma P_pos : M <= P <= 2 * M.
  Proof. rewrite P_val. destruct (nearest md); lia. Qed.

  Lemma round_err n k : 0 <= k -> 0 <= n -> n <= Max * 2 ^ k ->
    let r := round_bits f md false n k in
    fin r /\ P * Z.abs (mag f r * 2 ^ k - n) <= Z.max n (M * 2 ^ k).
  Proof.
    intros Hk Hn Hx. cbv zeta. assert (K : 0 < 2 ^ k) by (apply Z.pow_pos_nonneg; lia).
    pose proof (Z.div_mod n (2 ^ k) ltac:(lia)) as DM. pose proof (Z.mod_pos_bound n (2 ^ k) K) as DB.
    assert (Hq : 0 <= n / 2 ^ k) by (apply Z.div_pos; lia).
    destruct (floor_bits_spec f Hf (n / 2 ^ k) Hq) as (F0 & F1 & F2).
    assert (F3 : floor_bits f (n / 2 ^ k) <= finite_max_bits f).
    { destruct (Z_le_gt_dec (floor_bits f (n / 2 ^ k)) (finite_max_bits f)); auto. exfalso.
      pose proof (mag_mono f Hf (finite_max_bits f) (floor_bits f (n / 2 ^ k)) ltac:(destruct fin_max; lia) ltac:(lia)) as X.
      fold Max in X. nia. }
    unfold round_bits. rewrite Z.min_l by auto. set (a := floor_bits f (n / 2 ^ k)) in *.
    assert (L : mag f a * 2 ^ k <= n) by nia.
    assert (R : n < mag f (a + 1) * 2 ^ k) by nia.
    assert (fa : fin a) by (unfold fin; rewrite (max_val f) in F3; lia).
    assert (fa1 : mag f a * 2 ^ k <> n -> fin (a + 1)).
    { intros N. unfold fin. rewrite (max_val f) in F3. split; [lia|].
      destruct (Z.eq_dec a (finite_max_bits f)) as [E|E]; [exfalso; assert (EM : mag f a = Max) by (rewrite E; reflexivity); rewrite EM in *; lia|].
      rewrite (max_val f) in E. lia. }
    pose proof (gap a F0) as G. set (g := mag f (a + 1) - mag f a) in *.
    assert (B : g * (M * 2 ^ k) <= Z.max n (M * 2 ^ k)).
    { destruct G as [[G _]|(G0 & G1 & _)]; [rewrite G; lia|]. transitivity n; [|lia]. nia. }
    pose proof P_pos as HP. pose proof P_val as PV.
    destruct (Z.eqb_spec (mag f a * 2 ^ k) n) as [E|N].
    { split; auto. rewrite E, Z.sub_diag. change (Z.abs 0) with 0. nia. }
    specialize (fa1 N). assert (G0 : 0 < g) by lia.
    assert (EG : mag f (a + 1) = mag f a + g) by (unfold g; lia).
    unfold round_up_mag. destruct md; cbn [nearest negb] in *; rewrite PV in *.
    - rewrite EG in *. destruct (Z.compare_spec (2 * n) ((mag f a + (mag f a + g)) * 2 ^ k)) as [C|C|C].
      + destruct (Z.odd a); (split; [assumption|]); [rewrite EG, Z.abs_eq by nia|rewrite Z.abs_neq by nia]; nia.
      + split; [assumption|]. rewrite Z.abs_neq by nia. nia.
      + split; [assumption|]. rewrite EG, Z.abs_eq by nia. nia.
    - split; [assumption|]. rewrite Z.abs_neq by nia. nia.
    - split; [assumption|]. rewrite Z.abs_eq by nia. rewrite EG in *. nia.
    - split; [assumption|]. rewrite Z.abs_neq by nia. nia.
  Qed.
  Lemma round_over n k : 0 <= k -> Max * 2 ^ k < n ->
    round_bits f md false n k = finite_max_bits f \/ round_bits f md false n k = inf_bits f.
  Proof.
    intros Hk Hx. assert (K : 0 < 2 ^ k) by (apply Z.pow_pos_nonneg; lia).
    pose proof (fin_mag_nonneg _ fin_max) as MX. fold Max in MX.
    pose proof (Z.div_mod n (2 ^ k) ltac:(lia)) as DM. pose proof (Z.mod_pos_bound n (2 ^ k) K) as DB.
    assert (Hq : 0 <= n / 2 ^ k) by (apply Z.div_pos; nia).
    destruct (floor_bits_spec f Hf (n / 2 ^ k) Hq) as (F0 & F1 & F2).
    assert (F3 : finite_max_bits f <= floor_bits f (n / 2 ^ k)).
    { destruct (Z_le_gt_dec (finite_max_bits f) (floor_bits f (n / 2 ^ k))); auto. exfalso.
      pose proof (mag_le f Hf (floor_bits f (n / 2 ^ k) + 1) (finite_max_bits f) ltac:(lia) ltac:(lia)) as X.
      fold Max in X. assert (n / 2 ^ k < Max) by lia. nia. }
    unfold round_bits. rewrite Z.min_r by auto. fold Max.
    destruct (Z.eqb_spec (Max * 2 ^ k) n); [lia|]. pose proof (max_val f).
    destruct (round_up_mag _ _ _ _); [right; lia|left; auto].
  Qed.
  (* multiplication by a power of two is exact unless the result is subnormal *)
  Lemma scale_exact x j k : fin x -> 0 <= j -> 0 <= k -> M * 2 ^ k <= mag f x * 2 ^ j -> mag f x * 2 ^ j <= Max * 2 ^ k ->
    let r := round_bits f md false (mag f x * 2 ^ j) k in fin r /\ mag f r * 2 ^ k = mag f x * 2 ^ j.
  Proof.
    intros Hx Hj Hk L R. cbv zeta. destruct (mag_shape f Hf x ltac:(destruct Hx; auto)) as (d & e & He & Hd & E & _). fold M in Hd.
    assert (K : 0 < 2 ^ k) by (apply Z.pow_pos_nonneg; lia).
    destruct (Z_le_gt_dec k (e + j)).
    - assert (E2 : mag f x * 2 ^ j = d * 2 ^ (e + j - k) * 2 ^ k).
      { rewrite E, <- !Z.mul_assoc, <- !Z.pow_add_r by lia. f_equal. f_equal. lia. }
      assert (V : 0 <= d * 2 ^ (e + j - k) <= Max).
      { rewrite E2 in R. split; [apply Z.mul_nonneg_nonneg; [lia|apply Z.pow_nonneg; lia]|nia]. }
      assert (Rp : repr f (d * 2 ^ (e + j - k))).
      { apply (repr_scaled f Hf d (e + j - k)); try (fold M; lia).
        rewrite Z.abs_eq by lia. pose proof (mag_mono f Hf (finite_max_bits f) (inf_bits f)) as MM. fold Max in MM.
        pose proof fin_max as [F1 F2]. specialize (MM F1 F2). lia. }
      destruct Rp as (a & Ha & Ea). rewrite Z.abs_eq in Ea by lia. rewrite E2, <- Ea.
      rewrite (round_bits_exact f Hf) by auto. split; auto.
    - exfalso. rewrite E, <- Z.mul_assoc, <- Z.pow_add_r in L by lia.
      assert (J : 0 < 2 ^ (e + j)) by (apply Z.pow_pos_nonneg; lia).
      assert (2 * 2 ^ (e + j) <= 2 ^ k).
      { replace (2 * 2 ^ (e + j)) with (2 ^ (1 + (e + j))) by (rewrite Z.pow_add_r by lia; reflexivity).
        apply Z.pow_le_mono_r; lia. }
      nia.
  Qed.

  (* the operations *)
  Lemma round_0 k : 0 <= k -> round_bits f md false 0 k = 0.
  Proof. intros. replace 0 with (mag f 0 * 2 ^ k) at 1 by (rewrite mag_0; lia). apply (round_bits_exact f Hf); auto. apply fin_0. Qed.
  Lemma fround_pos v k : 0 <= k -> 0 <= v -> fround f md false v k = round_bits f md false v k.
  Proof.
    intros Hk Hv. unfold fround. destruct (Z.eqb_spec v 0) as [->|].
    - rewrite round_0 by auto. reflexivity.
    - destruct (Z.ltb_spec v 0); [lia|]. rewrite Z.abs_eq by auto. reflexivity.
  Qed.
  Lemma fmul_fin x y : fin x -> fin y -> fmul f md x y = round_bits f md false (mag f x * mag f y) (unit f).
  Proof.
    intros Hx Hy. pose proof (fin_mag_nonneg x Hx). pose proof (fin_mag_nonneg y Hy). unfold fmul. rewrite !fin_decode by auto.
    cbn [num xorb]. apply fround_pos; [apply unit_nonneg|nia].
  Qed.
  Lemma fadd_fin x y : fin x -> fin y -> fadd f md x y = round_bits f md false (mag f x + mag f y) 0.
  Proof.
    intros Hx Hy. pose proof (fin_mag_nonneg x Hx). pose proof (fin_mag_nonneg y Hy). unfold fadd. rewrite !fin_decode by auto.
    cbn [num Bool.eqb]. apply fround_pos; lia.
  Qed.
  Lemma ffma_fin x y z : fin x -> fin y -> fin z ->
    ffma f md x y z = round_bits f md false (mag f x * mag f y + mag f z * U) (unit f).
  Proof.
    intros Hx Hy Hz. pose proof (fin_mag_nonneg x Hx). pose proof (fin_mag_nonneg y Hy). pose proof (fin_mag_nonneg z Hz).
    pose proof U_pos. unfold ffma. rewrite !fin_decode by auto.
    cbn [num xorb Bool.eqb]. apply fround_pos; [apply unit_nonneg|unfold U in *; nia].
  Qed.
  Lemma mul_err x y : fin x -> fin y -> mag f x * mag f y <= Max * U ->
    let r := fmul f md x y in fin r /\ P * Z.abs (mag f r * U - mag f x * mag f y) <= Z.max (mag f x * mag f y) (M * U).
  Proof.
    intros Hx Hy B. cbv zeta. rewrite fmul_fin by auto. pose proof (fin_mag_nonneg x Hx). pose proof (fin_mag_nonneg y Hy).
    apply round_err; auto; [apply unit_nonneg|nia].
  Qed.
  Lemma add_err x y : fin x -> fin y -> mag f x + mag f y <= Max ->
    let r := fadd f md x y in fin r /\ P * Z.abs (mag f r * U - (mag f x + mag f y) * U) <= Z.max ((mag f x + mag f y) * U) (M * U).
  Proof.
    intros Hx Hy B. cbv zeta. rewrite fadd_fin by auto. pose proof (fin_mag_nonneg x Hx). pose proof (fin_mag_nonneg y Hy).
    destruct (round_err (mag f x + mag f y) 0) as [R1 R2]; auto; try lia. change (2 ^ 0) with 1 in R2. rewrite !Z.mul_1_r in R2.
    split; auto. pose proof U_pos. rewrite <- Z.mul_sub_distr_r, Z.abs_mul, (Z.abs_eq U) by lia.
    rewrite Z.mul_max_distr_nonneg_r, Z.mul_assoc by lia. apply Z.mul_le_mono_nonneg_r; lia.
  Qed.
  Lemma fma_err x y z : fin x -> fin y -> fin z -> mag f x * mag f y + mag f z * U <= Max * U ->
    let r := ffma f md x y z in let n := mag f x * mag f y + mag f z * U in
    fin r /\ P * Z.abs (mag f r * U - n) <= Z.max n (M * U).
  Proof.
    intros Hx Hy Hz B. cbv zeta. rewrite ffma_fin by auto.
    pose proof (fin_mag_nonneg x Hx). pose proof (fin_mag_nonneg y Hy). pose proof (fin_mag_nonneg z Hz). pose proof U_pos.
    apply round_err; auto; [apply unit_nonneg|nia].
  Qed.
  (* w / 4 is the number that is rounded *)
  Lemma sqrt_err x : fin x -> 0 < mag f x -> 16 * (mag f x * U) <= 8 * Max * Max ->
    let r := fsqrt f md x in exists w, 0 <= w /\ fin r /\ Z.abs (w * w - 16 * (mag f x * U)) <= 2 * w + 1 /\
      P * Z.abs (4 * mag f r - w) <= Z.max w (4 * M).
  Proof.
    intros Hx Hp B. cbv zeta. unfold fsqrt. rewrite fin_decode by auto. destruct (Z.eqb_spec (mag f x) 0) as [|NZ]; [lia|].
    fold U. pose proof U_pos. set (n := 4 * (mag f x * U)). assert (Hn : 0 <= n) by (unfold n; nia).
    pose proof (Z.sqrt_spec n Hn) as [S1 S2]. pose proof (Z.sqrt_nonneg n) as S0. cbv zeta in *.
    set (g := Z.sqrt n) in *. replace (16 * (mag f x * U)) with (4 * n) in * by (unfold n; lia).
    pose proof (fin_mag_nonneg _ fin_max) as MX. fold Max in MX.
    destruct (Z.eqb_spec (g * g) n) as [E|N].
    - exists (2 * g). split; [lia|]. destruct (round_err g 1) as [R1 R2]; try lia; [nia|]. change (2 ^ 1) with 2 in R2.
      split; auto. split; [rewrite <- E; rewrite Z.abs_eq; lia|].
      replace (4 * mag f (round_bits f md false g 1) - 2 * g) with (2 * (mag f (round_bits f md false g 1) * 2 - g)) by lia.
      rewrite Z.abs_mul. change (Z.abs 2) with 2. lia.
    - exists (2 * g + 1). split; [lia|]. assert (HMx : 2 <= Max).
      { pose proof (pow_eb_pos f Hf). rewrite max_num_val. unfold max_num.
        assert (2 <= 2 ^ (2 ^ eb f - 3)) by (change 2 with (2 ^ 1) at 1; apply Z.pow_le_mono_r; lia).
        assert (4 <= 2 ^ fp f) by (change 4 with (2 ^ 2); apply Z.pow_le_mono_r; destruct Hf; lia). nia. }
      destruct (round_err (2 * g + 1) 2) as [R1 R2]; try lia; [change (2 ^ 2) with 4; nia|]. change (2 ^ 2) with 4 in R2.
      split; auto. split; [apply Z.abs_le; nia|]. rewrite (Z.mul_comm 4 (mag f _)). lia.
  Qed.
End Format.
