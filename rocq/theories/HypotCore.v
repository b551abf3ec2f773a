(* The value hypot computes for finite arguments. *)
From Coq Require Import ZArith List Bool Lia Psatz.
From Verif Require Import Prelude X86Lanes FloatSpec FloatRoundSpec FloatBits FloatArith FloatRound FloatProofs FloatArithProofs
  FloatRoundProofs HypotSpec Hypot HypotArith HypotRound HypotScale.
Import ListNotations.
Open Scope Z_scope.

(* on integers: the result before and after the last rounding *)
Lemma final_close (near : bool) (P M U c d n R S : Z) : 2 ^ 15 <= M -> 0 < U -> 0 <= n < M * U -> 0 <= R -> 0 <= S ->
  P = (if near then 2 * M else M) -> (c = 5 /\ d = 2 \/ c = 6 /\ d = 3) ->
  P * Z.abs (n * n - S * (U * U)) <= c * (S * (U * U)) -> P * Z.abs (R * U - n) <= M * U ->
  let d := if near then d else 2 * d in S < (R + d) * (R + d) /\ (R <= d \/ (R - d) * (R - d) < S).
Proof.
  intros HM HU Hn HR HS EP Hcd H1 H2. cbv zeta.
  set (D := if near then d else 2 * d). set (E := if near then (2 * d - 1) * U else 2 * ((2 * d - 1) * U)).
  change (2 ^ 15) with 32768 in HM.
  assert (A : 2 * ((R + D) * U) >= 2 * n + E /\ 2 * ((R - D) * U) <= 2 * n - E).
  { unfold D, E. destruct near; subst P.
    - assert (X : 2 * Z.abs (R * U - n) <= U) by nia.
      destruct (Z.abs_spec (R * U - n)) as [[? Y]|[? Y]]; rewrite Y in X; split; lia.
    - assert (X : Z.abs (R * U - n) <= U) by nia.
      destruct (Z.abs_spec (R * U - n)) as [[? Y]|[? Y]]; rewrite Y in X; split; lia. }
  destruct A as [A1 A2].
  assert (V : (P - c) * (S * (U * U)) <= P * (n * n) <= (P + c) * (S * (U * U))).
  { assert (0 < P) by (subst P; destruct near; lia). assert (0 <= S * (U * U)) by (apply Z.mul_nonneg_nonneg; nia).
    set (T := S * (U * U)) in *. clearbody T. assert (0 < c) by lia. clear - H1 H H0 H3.
    destruct (Z.abs_spec (n * n - T)) as [[? Y]|[? Y]]; rewrite Y in H1; split; nia. }
  destruct V as [V1 V2]. clear H1 H2.
  assert (HE : 0 < E) by (unfold E; destruct near; lia).
  assert (Pc : 0 < P - c) by (subst P; destruct near; lia).
  assert (HcP : 0 < c < P) by lia.
  assert (G1 : c * (M * U) <= (P - c) * E).
  { unfold E. subst P. destruct near; destruct Hcd as [[-> ->]|[-> ->]]; nia. }
  assert (G2 : 5 * (P + c) * E >= 6 * (c * (M * U))).
  { unfold E. subst P. destruct near; destruct Hcd as [[-> ->]|[-> ->]]; nia. }
  assert (EU : E <= 10 * U) by (unfold E; destruct near; destruct Hcd as [[-> ->]|[-> ->]]; lia).
  assert (HD : 0 < D) by (unfold D; destruct near; lia).
  clearbody E D. clear EP Hcd.
  set (T := S * (U * U)) in *. assert (HT : 0 <= T) by (unfold T; nia).
  split.
  - (* S U^2 < ((R + D) U)^2 *)
    assert (Y : (P - c) * (4 * T) < (P - c) * ((2 * n + E) * (2 * n + E))).
    { assert (c * n <= (P - c) * E) by nia. assert (4 * n * (c * n) <= 4 * n * ((P - c) * E)) by (apply Z.mul_le_mono_nonneg_l; lia).
      assert (0 < (P - c) * (E * E)) by (apply Z.mul_pos_pos; nia). lia. }
    apply Z.mul_lt_mono_pos_l in Y; [|lia].
    assert (Z0 : (2 * n + E) * (2 * n + E) <= (2 * ((R + D) * U)) * (2 * ((R + D) * U))) by (apply Z.mul_le_mono_nonneg; lia).
    unfold T in Y. apply (Z.mul_lt_mono_pos_r (U * U)); [nia|]. lia.
  - destruct (Z_le_gt_dec R D); [left; auto|right].
    assert (Q0 : 0 < 2 * ((R - D) * U)) by nia.
    assert (Q1 : E < 2 * n) by lia.
    assert (Y : (P + c) * ((2 * n - E) * (2 * n - E)) < (P + c) * (4 * T)).
    { assert (K : (P + c) * (E * E) < 4 * n * ((P + c) * E - c * n)).
      { destruct (Z_le_gt_dec (4 * n) (M * U)).
        - (* n small *)
          assert (c * n <= c * (M * U) - 3 * (c * n)) by nia.
          assert (QK : 24 * (c * n) <= 5 * ((P + c) * E)) by lia. assert (K0 : 0 <= c * n) by nia.
          assert (2 * n * ((P + c) * E) > (P + c) * (E * E)).
          { replace ((P + c) * (E * E)) with (E * ((P + c) * E)) by ring. apply Z.lt_gt. apply Z.mul_lt_mono_pos_r; [apply Z.mul_pos_pos; lia|lia]. }
          assert (4 * n * ((P + c) * E - c * n) >= 2 * n * ((P + c) * E)) by (set (Q := (P + c) * E) in *; set (k := c * n) in *; clearbody Q k; clear - QK K0 Hn; assert (2 * k <= Q) by lia; nia). lia.
        - assert (c * n <= c * (M * U)) by nia. assert (6 * (c * n) <= 5 * ((P + c) * E)) by lia.
          assert (6 * (4 * n * ((P + c) * E - c * n)) >= 4 * n * ((P + c) * E)) by nia.
          assert (6 * ((P + c) * (E * E)) < 4 * n * ((P + c) * E)).
          { replace (6 * ((P + c) * (E * E))) with (6 * E * ((P + c) * E)) by ring. apply Z.mul_lt_mono_pos_r; [apply Z.mul_pos_pos; lia|].
            nia. }
          lia. }
      lia. }
    apply Z.mul_lt_mono_pos_l in Y; [|lia].
    assert (Z0 : (2 * ((R - D) * U)) * (2 * ((R - D) * U)) <= (2 * n - E) * (2 * n - E)) by (apply Z.mul_le_mono_nonneg; lia).
    unfold T in Y. apply (Z.mul_lt_mono_pos_r (U * U)); [nia|]. lia.
Qed.

(* squares of the scaled arguments *)
Lemma square_slack P M a b e : 0 < e -> 0 <= a -> 0 <= b -> 1 <= M <= P ->
  a = b \/ (b < M * e /\ P * Z.abs (a - b) <= M * e) -> Z.abs (a * a - b * b) <= 3 * M * (e * e).
Proof.
  intros He Ha Hb HM [->|[L H]]; [rewrite Z.sub_diag; change (Z.abs 0) with 0; nia|].
  assert (X : Z.abs (a - b) <= e). { pose proof (Z.abs_nonneg (a - b)). nia. }
  replace (a * a - b * b) with ((a - b) * (a + b)) by ring. rewrite Z.abs_mul, (Z.abs_eq (a + b)) by lia.
  assert (a + b <= 3 * M * e). { assert (a <= b + e) by lia. nia. }
  transitivity (e * (3 * M * e)); [apply Z.mul_le_mono_nonneg; lia|lia].
Qed.

Section Format.
  Variable f : fmt.
  Hypothesis Hf : fmt_ok f.
  Hypothesis Hp : 16 <= fp f.
  Hypothesis Hb : 4 * fp f + 8 <= bias f.
  Variable md : rmode.
  Let M := 2 ^ mb f.
  Let U := 2 ^ unit f.
  Let B0 := 2 ^ (bias f - 1).
  Let P := precision f md.
  Let Max := mag f (finite_max_bits f).
  Local Notation fin := (fin f).
  Local Notation mag := (mag f).

  (* sizes, without the definitions *)
  Lemma sizes : 2 ^ 15 <= M /\ M <= P <= 2 * M /\ U = M * B0 /\ 2048 * (M * M * (M * M)) <= B0 /\ 2 * U * B0 <= Max /\ 0 < U.
  Proof.
    split; [apply (M_big f Hp)|]. split; [apply P_bounds; auto|]. split; [apply U_val; auto|]. split; [apply B0_big; auto|].
    split; [apply Max_big; auto|apply U_pos; auto].
  Qed.
  Lemma Max_U : 1000 * U <= Max.
  Proof.
    destruct sizes as (H1 & _ & _ & H4 & H5 & H6). change (2 ^ 15) with 32768 in H1.
    assert (1000 <= B0) by nia. nia.
  Qed.

  Lemma M_le_U : M <= U.
  Proof.
    destruct sizes as (H1 & _ & H3 & H4 & _). change (2 ^ 15) with 32768 in H1. rewrite H3. clear - H1 H4.
    assert (0 < M * M * (M * M)) by (repeat apply Z.mul_pos_pos; lia). assert (1 <= B0) by lia. nia.
  Qed.

  Lemma sq_err x : fin x -> mag x <= 4 * U -> let r := fmul f md x x in
    fin r /\ mag r <= 18 * U /\ P * Z.abs (mag r * U - mag x * mag x) <= mag x * mag x + P * U.
  Proof.
    intros Hx B. cbv zeta. destruct sizes as (H1 & H2 & H3 & _ & _ & HU). change (2 ^ 15) with 32768 in H1. pose proof Max_U as HX.
    pose proof (fin_mag_nonneg f Hf x Hx) as N. assert (S : mag x * mag x <= 16 * (U * U)) by nia.
    assert (S0 : 0 <= mag x * mag x) by nia.
    destruct (mul_err f Hf md x x Hx Hx) as [R1 R2]; [fold Max U; nia|]. fold U M P in R2.
    set (r := mag (fmul f md x x)) in *. split; auto.
    assert (PU : M * U <= P * U) by (apply Z.mul_le_mono_nonneg_r; lia).
    assert (E : P * Z.abs (r * U - mag x * mag x) <= mag x * mag x + P * U) by lia. split; auto.
    assert (UU : U <= U * U) by (clear - HU; nia).
    assert (E3 : r * U <= 18 * (U * U)).
    { set (X := mag x * mag x) in *. set (Y := r * U) in *. set (V := U * U) in *. clearbody X Y V. clear - E S S0 H1 H2 UU HU.
      assert (Z.abs (Y - X) <= 2 * V); [|lia]. pose proof (Z.abs_nonneg (Y - X)).
      assert (P * Z.abs (Y - X) <= P * (2 * V)); [|nia]. assert (P * U <= P * V) by nia. assert (16 * V <= P * V) by nia. lia. }
    clear - E3 HU. nia.
  Qed.

  Lemma mag_div x m : 0 < U -> x * U <= m * (U * U) -> x <= m * U.
  Proof. intros. nia. Qed.
  (* the sum of two squares *)
  Lemma sum_squares_ok c x y : fin x -> fin y -> mag x <= 4 * U -> mag y <= 4 * U ->
    let s := sum_squares c f md x y in
    exists t, 0 <= t /\ fin s /\ mag s <= 50 * U /\
      P * Z.abs (t - (mag x * mag x + mag y * mag y)) <= mag x * mag x + mag y * mag y + 2 * P * U /\
      P * Z.abs (mag s * U - t) <= Z.max t (M * U).
  Proof.
    intros Hx Hy Bx By. destruct sizes as (H1 & H2 & H3 & _ & _ & HU). change (2 ^ 15) with 32768 in H1. pose proof Max_U as HX.
    destruct (sq_err x Hx Bx) as (X1 & X2 & X3). destruct (sq_err y Hy By) as (Y1 & Y2 & Y3). cbv zeta in *.
    pose proof (fin_mag_nonneg f Hf x Hx) as Nx. pose proof (fin_mag_nonneg f Hf y Hy) as Ny.
    pose proof (fin_mag_nonneg f Hf _ X1) as Nx2. pose proof (fin_mag_nonneg f Hf _ Y1) as Ny2.
    assert (Sx : 0 <= mag x * mag x <= 16 * (U * U)) by (clear - Nx Bx HU; nia).
    assert (Sy : 0 <= mag y * mag y <= 16 * (U * U)) by (clear - Ny By HU; nia).
    assert (UU : M * U <= U * U) by (apply Z.mul_le_mono_nonneg_r; [lia|apply M_le_U]).
    assert (UM : 36 * (U * U) <= Max * U) by (clear - HX HU; nia).
    assert (PU : 0 <= P * U) by (clear - H1 H2 HU; nia).
    assert (Size : forall s t, 0 <= t <= 36 * (U * U) -> P * Z.abs (mag s * U - t) <= Z.max t (M * U) -> mag s <= 50 * U).
    { intros s t Ht Hs. apply mag_div; auto. assert (Z.abs (mag s * U - t) <= 14 * (U * U)); [|lia].
      assert (Z.max t (M * U) <= 36 * (U * U)) by lia. pose proof (Z.abs_nonneg (mag s * U - t)). clear - H H0 Hs H1 H2 HU.
      assert (32768 * Z.abs (mag s * U - t) <= 36 * (U * U)) by nia. lia. }
    assert (MUL : forall m, m <= 18 * U -> m * U <= 18 * (U * U)).
    { intros m Hm. replace (18 * (U * U)) with (18 * U * U) by ring. apply Z.mul_le_mono_nonneg_r; lia. }
    pose proof (MUL _ X2) as MX. pose proof (MUL _ Y2) as MY.
    destruct c; cbn [sum_squares].
    - destruct (add_err f Hf md _ _ X1 Y1) as [A1 A2]; [fold Max; lia|]. fold U M P in A2.
      assert (T : 0 <= (mag (fmul f md x x) + mag (fmul f md y y)) * U <= 36 * (U * U)) by (clear - MX MY Nx2 Ny2 HU; nia).
      eexists. split; [|split; [exact A1|]]; [|split; [|split; [|exact A2]]]; [apply T|eapply Size; [exact T|exact A2]|].
      rewrite Z.mul_add_distr_r.
      set (a := mag (fmul f md x x) * U) in *. set (b := mag (fmul f md y y) * U) in *.
      replace (a + b - (mag x * mag x + mag y * mag y)) with ((a - mag x * mag x) + (b - mag y * mag y)) by ring.
      pose proof (Z.abs_triangle (a - mag x * mag x) (b - mag y * mag y)).
      assert (P * Z.abs (a - mag x * mag x + (b - mag y * mag y)) <= P * Z.abs (a - mag x * mag x) + P * Z.abs (b - mag y * mag y)).
      { clear - H H1 H2. nia. } lia.
    - destruct (fma_err f Hf md x x _ Hx Hx Y1) as [A1 A2]; [fold U Max; lia|]. cbv zeta in A2. fold U M P in A2.
      assert (T : 0 <= mag x * mag x + mag (fmul f md y y) * U <= 36 * (U * U)) by (clear - MY Ny2 HU Sx; nia).
      eexists. split; [|split; [exact A1|]]; [|split; [|split; [|exact A2]]]; [apply T|eapply Size; [exact T|exact A2]|].
      replace (mag x * mag x + mag (fmul f md y y) * U - (mag x * mag x + mag y * mag y)) with (mag (fmul f md y y) * U - mag y * mag y) by ring.
      lia.
    - destruct (fma_err f Hf md y y _ Hy Hy X1) as [A1 A2]; [fold U Max; lia|]. cbv zeta in A2. fold U M P in A2.
      assert (T : 0 <= mag y * mag y + mag (fmul f md x x) * U <= 36 * (U * U)) by (clear - MX Nx2 HU Sy; nia).
      eexists. split; [|split; [exact A1|]]; [|split; [|split; [|exact A2]]]; [apply T|eapply Size; [exact T|exact A2]|].
      replace (mag y * mag y + mag (fmul f md x x) * U - (mag x * mag x + mag y * mag y)) with (mag (fmul f md x x) * U - mag x * mag x) by ring.
      lia.
  Qed.
  (* one more square, of a number that is not small *)
  Lemma add_square_ok fused l h : fin l -> fin h -> mag l <= 50 * U -> B0 <= mag h <= 2 * U ->
    let s := add_square fused f md l h in
    exists hh, 0 <= hh /\ fin s /\ mag s <= 100 * U /\
      P * Z.abs (hh - mag h * mag h) <= mag h * mag h /\ P * Z.abs (mag s * U - (mag l * U + hh)) <= mag l * U + hh.
  Proof.
    intros Hl Hh Bl Bh. destruct sizes as (H1 & H2 & H3 & H4 & _ & HU). change (2 ^ 15) with 32768 in H1. pose proof Max_U as HX.
    pose proof (fin_mag_nonneg f Hf l Hl) as Nl. pose proof (fin_mag_nonneg f Hf h Hh) as Nh.
    assert (Sh : mag h * mag h <= 4 * (U * U)) by (clear - Bh Nh HU; nia).
    assert (B8 : 2 * (M * M) <= B0) by (clear - H4 H1; nia).
    assert (Lh : 2 * (M * U) <= mag h * mag h).
    { rewrite H3. assert (B0 * B0 <= mag h * mag h) by (clear - Bh B8 H1; nia). assert (2 * (M * M) * B0 <= B0 * B0) by (clear - B8 H1; nia). lia. }
    assert (LU : mag l * U <= 50 * (U * U)) by (clear - Bl HU; nia).
    assert (NlU : 0 <= mag l * U) by (clear - Nl HU; nia).
    assert (UM : 1000 * (U * U) <= Max * U) by (clear - HX HU; nia).
    destruct (mul_err f Hf md h h Hh Hh) as [R1 R2]; [fold U Max; lia|]. cbv zeta in R2. fold U M P in R2.
    rewrite Z.max_l in R2 by (clear - Lh H1 HU; nia). pose proof (fin_mag_nonneg f Hf _ R1) as Nr. set (r := fmul f md h h) in *.
    assert (RU : 0 <= mag r * U) by (clear - Nr HU; nia).
    assert (RR : mag h * mag h <= 2 * (mag r * U) <= 4 * (mag h * mag h)).
    { clear - R2 H1 H2 Lh. assert (X : 32768 * Z.abs (mag r * U - mag h * mag h) <= mag h * mag h).
      { pose proof (Z.abs_nonneg (mag r * U - mag h * mag h)). nia. } lia. }
    assert (Size : forall s t, 0 <= t <= 60 * (U * U) -> P * Z.abs (mag s * U - t) <= t -> mag s <= 100 * U).
    { intros s t Ht Hs. apply mag_div; auto. assert (Z.abs (mag s * U - t) <= 1 * (U * U)); [|lia].
      pose proof (Z.abs_nonneg (mag s * U - t)). clear - H Ht Hs H1 H2 HU. assert (32768 * Z.abs (mag s * U - t) <= t) by nia. lia. }
    cbv zeta. unfold add_square. destruct fused.
    - destruct (fma_err f Hf md h h l Hh Hh Hl) as [A1 A2]; [fold U Max; lia|]. cbv zeta in A2. fold U M P in A2.
      rewrite Z.max_l in A2 by (clear - Lh NlU H1 HU; nia).
      exists (mag h * mag h). split; [lia|]. split; auto. rewrite !(Z.add_comm (mag h * mag h)) in A2.
      rewrite Z.sub_diag. change (Z.abs 0) with 0. split; [|split; [lia|]].
      + eapply Size with (t := mag l * U + mag h * mag h); [lia|]. clear - A2. lia.
      + clear - A2. lia.
    - destruct (add_err f Hf md l r Hl R1) as [A1 A2]; [fold Max; pose proof (mag_div (mag r) 8 HU ltac:(lia)); lia|]. cbv zeta in A2. fold U M P in A2.
      rewrite Z.mul_add_distr_r in A2. rewrite Z.max_l in A2 by (clear - Lh RR NlU H1 HU; lia).
      exists (mag r * U). split; [lia|]. split; auto. split; [|split; auto].
      eapply Size with (t := mag l * U + mag r * U); [lia|]. exact A2.
  Qed.
  (* the root *)
  Lemma root_ok s : fin s -> mag s <= 100 * U -> 64 * ((P * P) * (P * P)) <= mag s * U ->
    let q := fsqrt f md s in fin q /\
    bnd ((P - 1) * (P - 1) * (P * P - 1)) ((P + 1) * (P + 1) * (P * P + 1)) (P * P * (P * P)) (16 * (mag q * mag q)) (16 * (mag s * U)).
  Proof.
    intros Hs B L. destruct sizes as (H1 & H2 & H3 & H4 & _ & HU). change (2 ^ 15) with 32768 in H1. pose proof Max_U as HX.
    pose proof (fin_mag_nonneg f Hf s Hs) as N. assert (PP : 32768 * 32768 <= P * P) by (clear - H1 H2; nia).
    assert (S0 : 0 < mag s). { destruct (Z.eq_dec (mag s) 0) as [E|]; [|lia]. exfalso. rewrite E in L. clear - L PP. nia. }
    destruct (sqrt_err f Hf md s Hs S0) as (w & W0 & Q1 & W1 & W2).
    { fold U Max. assert (16 * (mag s * U) <= 1600 * (U * U)) by (clear - B HU; nia). assert (1000 * U * (1000 * U) <= Max * Max) by (clear - HX HU; nia). lia. }
    cbv zeta in *. fold U in W1. fold P M in W2. split; auto.
    assert (Hw : 8 * (P * P) <= w).
    { destruct (Z_le_gt_dec (8 * (P * P)) w); auto. exfalso.
      assert (16 * (mag s * U) <= w * w + 2 * w + 1) by lia. clear - H L g W0 PP. nia. }
    rewrite Z.max_l in W2 by (clear - Hw H1 H2; nia).
    apply root_bnd with (w := w); auto; try lia.
    apply (fin_mag_nonneg f Hf _ Q1).
  Qed.
  (* undoing the scaling *)
  Lemma final_ok e q S c d : fin e -> (exists j, 0 <= j /\ mag e = 2 ^ j) -> fin q -> 0 <= S -> (c = 5 /\ d = 2 \/ c = 6 /\ d = 3) ->
    P * Z.abs (mag q * mag q * (mag e * mag e) - S * (U * U)) <= c * (S * (U * U)) ->
    (exists m, decode f (fmul f md e q) = DFin false m /\ close f md c d m S) \/
    (P * (max_num f * max_num f) < (P + c) * S /\
     (decode f (fmul f md e q) = DInf false \/ decode f (fmul f md e q) = DFin false (max_num f))).
  Proof.
    intros He (j & Hj & Ej) Hq HS Hcd H. destruct sizes as (H1 & H2 & _ & _ & _ & HU).
    pose proof (fin_mag_nonneg f Hf q Hq) as Nq. assert (Ne : 0 < mag e) by (rewrite Ej; apply Z.pow_pos_nonneg; lia).
    rewrite <- (max_num_val f Hf). fold Max. rewrite (fmul_fin f Hf) by auto.
    replace (mag q * mag q * (mag e * mag e)) with ((mag e * mag q) * (mag e * mag q)) in H by ring.
    assert (Nn : 0 <= mag e * mag q) by nia.
    destruct (Z_lt_le_dec (Max * U) (mag e * mag q)) as [O|O].
    - right. split.
      + pose proof (fin_mag_nonneg f Hf _ (fin_max f Hf)) as NM. fold Max in NM.
        assert (X : (Max * U) * (Max * U) < (mag e * mag q) * (mag e * mag q)) by (clear - O NM HU; nia).
        set (n := mag e * mag q) in *. apply (Z.mul_lt_mono_pos_r (U * U)); [nia|].
        assert (Y : P * (n * n) <= (P + c) * (S * (U * U))).
        { destruct (Z.abs_spec (n * n - S * (U * U))) as [[? Y]|[? Y]]; rewrite Y in H; [lia|].
          assert (P * (n * n) <= P * (S * (U * U))) by (apply Z.mul_le_mono_nonneg_l; lia). assert (0 <= S * (U * U)) by nia. nia. }
        assert (P * ((Max * U) * (Max * U)) < P * (n * n)) by (apply Z.mul_lt_mono_pos_l; lia). lia.
      + destruct (round_over f Hf md (mag e * mag q) (unit f) (unit_nonneg f Hf) O) as [E|E]; rewrite E.
        * right. apply (fin_decode f Hf). apply (fin_max f Hf).
        * left. apply (decode_with_inf f Hf false).
    - left. destruct (Z_le_gt_dec (M * U) (mag e * mag q)) as [L|L].
      + rewrite Ej in *. rewrite (Z.mul_comm (2 ^ j)) in *.
        destruct (scale_exact f Hf md q j (unit f) Hq Hj (unit_nonneg f Hf) L O) as [R1 R2]. cbv zeta in *. fold U in R2.
        exists (mag (round_bits f md false (mag q * 2 ^ j) (unit f))). split; [apply (fin_decode f Hf); auto|].
        left. fold P. rewrite <- R2 in H. set (R := mag (round_bits f md false (mag q * 2 ^ j) (unit f))) in *.
        apply (Z.mul_le_mono_pos_r _ _ (U * U)); [nia|].
        replace (R * U * (R * U) - S * (U * U)) with ((R * R - S) * (U * U)) in H by ring.
        rewrite Z.abs_mul, (Z.abs_eq (U * U)) in H by nia. lia.
      + destruct (round_err f Hf md (mag e * mag q) (unit f) (unit_nonneg f Hf) Nn O) as [R1 R2]. cbv zeta in *. fold U M P in R2.
        rewrite Z.max_r in R2 by lia. set (R := round_bits f md false (mag e * mag q) (unit f)) in *.
        exists (mag R). split; [apply (fin_decode f Hf); auto|]. right.
        apply (final_close (nearest md) P M U c d (mag e * mag q)); auto; try lia.
        * apply (fin_mag_nonneg f Hf); auto.
        * apply P_val; auto.
  Qed.

  Lemma slack_sizes h : B0 <= h -> 6 * (P * (P * P)) * U <= h * h /\ (P * P) * (6 * M) <= h * h /\
    256 * ((P * P) * (P * P)) <= h * h /\ 4 * (M * U) <= h * h.
  Proof.
    destruct sizes as (H1 & H2 & H3 & H4 & _ & HU). change (2 ^ 15) with 32768 in H1. intros Hh.
    assert (PP : P * P <= 4 * (M * M)) by (clear - H1 H2; nia). assert (P0 : 0 <= P * P) by (clear - H1 H2; nia).
    assert (PPP : P * (P * P) <= 8 * (M * (M * M))) by (clear - PP P0 H1 H2; nia).
    assert (P4 : (P * P) * (P * P) <= 16 * (M * M * (M * M))) by (clear - PP P0 H1 H2; nia).
    assert (BB : 2048 * (M * M * (M * M)) * B0 <= h * h) by (clear - H4 Hh H1; nia).
    assert (M4 : 0 < M * M * (M * M)) by (clear - H1; nia).
    assert (M3 : 0 < M * (M * M) <= M * M * (M * M)) by (clear - H1; nia).
    assert (Bp : 1 <= B0) by (clear - H4 H1; nia).
    assert (B2 : 2 <= B0) by (clear - H4 M4; lia).
    assert (BB1 : 4096 * (M * M * (M * M)) <= h * h) by (clear - BB M4 B2; nia).
    repeat split.
    - rewrite H3. transitivity (48 * (M * (M * M)) * (M * B0)); [apply Z.mul_le_mono_nonneg_r; [clear - H1 Bp; nia|lia]|].
      replace (48 * (M * (M * M)) * (M * B0)) with (48 * (M * M * (M * M)) * B0) by ring. clear - BB M4 Bp. nia.
    - transitivity (24 * (M * (M * M))); [|lia]. clear - PP P0 H1. nia.
    - lia.
    - rewrite H3. replace (4 * (M * (M * B0))) with (4 * (M * M) * B0) by ring. assert (M * M <= M * M * (M * M)) by (clear - H1; nia).
      transitivity (2048 * (M * M * (M * M)) * B0); [apply Z.mul_le_mono_nonneg_r; lia|auto].
  Qed.

  (* two arguments *)
  Lemma hypot2_ok c hi e s h1 lo : scaling f md hi e s h1 -> fin hi -> fin lo -> mag lo <= mag hi ->
    let l1 := fmul f md lo s in
    let r := fmul f md e (fsqrt f md (sum_squares c f md h1 l1)) in
    let S := mag hi * mag hi + mag lo * mag lo in
    (exists m, decode f r = DFin false m /\ close f md 5 2 m S) \/
    (P * (max_num f * max_num f) < (P + 5) * S /\ (decode f r = DInf false \/ decode f r = DFin false (max_num f))).
  Proof.
    intros Sc Fh Fl L. cbv zeta. destruct (scale_lo f Hf Hp Hb md hi e s h1 lo Sc Fh Fl L) as (F1 & B1 & V1). cbv zeta in *.
    fold U in B1, V1. fold M P in V1. set (l1 := fmul f md lo s) in *.
    destruct Sc as [Fe Fs Fh1 (j & Hj & Ej) _ Inv _ V B2 B3]. fold U in Inv, V, B3. fold B0 in B2.
    destruct sizes as (H1 & H2 & H3 & H4 & _ & HU). change (2 ^ 15) with 32768 in H1.
    assert (Ne : 0 < mag e) by (rewrite Ej; apply Z.pow_pos_nonneg; lia).
    pose proof (fin_mag_nonneg f Hf hi Fh) as Nh. pose proof (fin_mag_nonneg f Hf lo Fl) as Nl.
    pose proof (fin_mag_nonneg f Hf h1 Fh1) as Nh1. pose proof (fin_mag_nonneg f Hf l1 F1) as Nl1.
    destruct (slack_sizes (mag h1) B2) as (Z1 & Z2 & Z3 & Z4).
    destruct (sum_squares_ok c h1 l1 Fh1 F1 ltac:(lia) B1) as (t & T0 & Fs' & Bs & T1 & T2). cbv zeta in *.
    set (ss := sum_squares c f md h1 l1) in *. set (A := mag h1 * mag h1 + mag l1 * mag l1) in *.
    assert (N2 : forall a, 0 <= a -> 0 <= a * a) by (clear; intros; nia).
    assert (HA : mag h1 * mag h1 <= A) by (unfold A; pose proof (N2 _ Nl1); lia).
    assert (PUA : 2 * P * U <= 3 * P * U) by (assert (0 <= P * U) by (clear - H1 H2 HU; apply Z.mul_nonneg_nonneg; lia); clear - H; lia).
    assert (HPP : 0 < P * P) by (clear - H1 H2; nia). assert (HUU : 0 < U * U) by (clear - HU; nia).
    pose proof (N2 _ Nh) as Nhh. pose proof (N2 _ Nl) as Nll. pose proof (N2 _ Nh1) as Nhh1.
    assert (T3 : bnd ((P - 1) * (P * P - 1)) ((P + 1) * (P * P + 1)) (P * (P * P)) t A).
    { apply sum2_bnd with (U := U); [clear - H1 H2; lia|clear - HA Nhh1; lia|clear - HU; lia| |].
      - assert (0 <= P * (P * P) * U) by (clear - H1 H2 HU; repeat apply Z.mul_nonneg_nonneg; lia). clear - H Z1 HA. lia.
      - etransitivity; [exact T1|]. clear - PUA. lia. }
    assert (TM : A <= 2 * t).
    { destruct T3 as [T3 _]. assert (A0 : 0 <= A) by (clear - HA Nhh1; lia). clear - T3 H1 H2 T0 A0.
      assert (P * (P * P) <= 2 * ((P - 1) * (P * P - 1))) by nia. assert (0 < P * (P * P)) by nia. nia. }
    assert (TT : M * U <= t) by (clear - Z4 HA TM HU H1; assert (0 <= M * U) by nia; lia).
    rewrite Z.max_l in T2 by exact TT.
    assert (SM : A <= 4 * (mag ss * U)).
    { pose proof (Z.abs_nonneg (mag ss * U - t)). assert (X : 32768 * Z.abs (mag ss * U - t) <= t) by (clear - H T2 H1 H2; nia). clear - X TM. lia. }
    assert (R1 : mag ss <= 100 * U) by (clear - Bs HU; lia).
    assert (R2 : 64 * ((P * P) * (P * P)) <= mag ss * U) by (clear - Z3 HA SM HPP; assert (0 <= P * P * (P * P)) by (apply Z.mul_nonneg_nonneg; lia); lia).
    destruct (root_ok ss Fs' R1 R2) as [Fq Rb]. cbv zeta in *.
    pose proof (fin_mag_nonneg f Hf _ Fq) as Nq. set (q := fsqrt f md ss) in *.
    assert (P64 : 64 <= P) by (clear - H1 H2; lia).
    assert (K0 : 0 <= mag e * mag e) by (clear - Ne; nia).
    assert (S0 : 0 <= mag hi * mag hi + mag lo * mag lo) by (clear - Nhh Nll; lia).
    assert (SU0 : 0 <= (mag hi * mag hi + mag lo * mag lo) * (U * U)) by (apply Z.mul_nonneg_nonneg; [exact S0|clear - HUU; lia]).
    refine (final_ok e q _ 5 2 Fe (ex_intro _ j (conj Hj Ej)) Fq S0 (or_introl (conj eq_refl eq_refl)) _).
    refine (hypot2_bnd P P64 (mag q) (mag ss * U) t A (mag e * mag e) _ Nq K0 SU0 Rb T2 T3 _).
    (* the scaling *)
    apply bnd_abs; [clear - HPP; lia|]. clear T1 T2 T3 Rb TM TT SM R1 R2 Z1 Z3 Z4 Bs T0.
    set (K := mag e * mag e). assert (HK : 0 < K) by (unfold K; clear - Ne; nia).
    assert (X1 : 0 <= mag l1 * mag e) by (apply Z.mul_nonneg_nonneg; lia). assert (Y1 : 0 <= mag lo * U) by (apply Z.mul_nonneg_nonneg; lia).
    assert (SQ := square_slack P M (mag l1 * mag e) (mag lo * U) (mag e) Ne X1 Y1 ltac:(clear - H1 H2; lia) V1). fold K in SQ. clear V1.
    replace (A * K - (mag hi * mag hi + mag lo * mag lo) * (U * U))
      with ((mag h1 * mag e) * (mag h1 * mag e) - (mag hi * U) * (mag hi * U)
            + (mag l1 * mag e * (mag l1 * mag e) - mag lo * U * (mag lo * U))) by (unfold A, K; ring).
    rewrite V. rewrite Z.sub_diag, Z.add_0_l.
    assert (X : (P * P) * (6 * M) * K <= (mag hi * U) * (mag hi * U)).
    { rewrite <- V. replace (mag h1 * mag e * (mag h1 * mag e)) with (mag h1 * mag h1 * K) by (unfold K; ring).
      apply Z.mul_le_mono_nonneg_r; lia. }
    transitivity ((P * P) * (3 * M * K)); [apply Z.mul_le_mono_nonneg_l; [lia|auto]|].
    assert (0 <= mag lo * mag lo * (U * U)) by (apply Z.mul_nonneg_nonneg; lia).
    assert (0 <= (P * P) * (3 * M) * K) by (repeat apply Z.mul_nonneg_nonneg; lia).
    clear - X H H0. lia.
  Qed.

  (* three arguments; l0 and l1 are scaled to m0 and m1, lo is the sum of their squares *)
  Lemma hypot3_ok c fused hi e s h1 l0 l1 : scaling f md hi e s h1 -> fin hi -> fin l0 -> fin l1 ->
    mag l0 <= mag hi -> mag l1 <= mag hi ->
    let lo := sum_squares c f md (fmul f md l0 s) (fmul f md l1 s) in
    let r := fmul f md e (fsqrt f md (add_square fused f md lo h1)) in
    let S := mag hi * mag hi + (mag l0 * mag l0 + mag l1 * mag l1) in
    fin lo /\
    ((exists m, decode f r = DFin false m /\ close f md 6 3 m S) \/
     (P * (max_num f * max_num f) < (P + 6) * S /\ (decode f r = DInf false \/ decode f r = DFin false (max_num f)))) /\
    (mag lo = 0 -> P * Z.abs (mag hi * mag hi - S) <= 6 * S).
  Proof.
    intros Sc Fh F0 F1 L0 L1. cbv zeta.
    destruct (scale_lo f Hf Hp Hb md hi e s h1 l0 Sc Fh F0 L0) as (G0 & C0 & V0).
    destruct (scale_lo f Hf Hp Hb md hi e s h1 l1 Sc Fh F1 L1) as (G1 & C1 & V1). cbv zeta in *.
    fold U in C0, C1, V0, V1. fold M P in V0, V1. set (m0 := fmul f md l0 s) in *. set (m1 := fmul f md l1 s) in *.
    destruct Sc as [Fe Fs Fh1 (j & Hj & Ej) _ Inv _ V B2 B3]. fold U in Inv, V, B3. fold B0 in B2.
    destruct sizes as (H1 & H2 & H3 & H4 & _ & HU). change (2 ^ 15) with 32768 in H1.
    assert (Ne : 0 < mag e) by (rewrite Ej; apply Z.pow_pos_nonneg; lia).
    pose proof (fin_mag_nonneg f Hf hi Fh) as Nh. pose proof (fin_mag_nonneg f Hf l0 F0) as N0. pose proof (fin_mag_nonneg f Hf l1 F1) as N1.
    pose proof (fin_mag_nonneg f Hf h1 Fh1) as Nh1. pose proof (fin_mag_nonneg f Hf m0 G0) as Nm0. pose proof (fin_mag_nonneg f Hf m1 G1) as Nm1.
    destruct (slack_sizes (mag h1) B2) as (Z1 & Z2 & Z3 & Z4).
    destruct (sum_squares_ok c m0 m1 G0 G1 C0 C1) as (t & T0 & Fs' & Bs & T1 & T2). cbv zeta in *.
    set (lo := sum_squares c f md m0 m1) in *. set (L := mag m0 * mag m0 + mag m1 * mag m1) in *.
    assert (HL : 0 <= L) by (unfold L; clear - Nm0 Nm1; nia).
    set (A := mag h1 * mag h1 + L).
    set (K := mag e * mag e). assert (HK : 0 < K) by (unfold K; clear - Ne; nia).
    (* the scaling *)
    set (S := mag hi * mag hi + (mag l0 * mag l0 + mag l1 * mag l1)).
    assert (N2 : forall a, 0 <= a -> 0 <= a * a) by (clear; intros; nia).
    pose proof (N2 _ Nh) as Qh. pose proof (N2 _ N0) as Q0'. pose proof (N2 _ N1) as Q1'. pose proof (N2 _ Nh1) as Qh1.
    assert (HS : 0 <= S) by (unfold S; clear - Qh Q0' Q1'; lia).
    assert (HUU : 0 < U * U) by (clear - HU; nia).
    assert (HPP : 0 < P * P) by (clear - H1 H2; nia).
    assert (BA : bnd (P * P - 1) (P * P + 1) (P * P) (A * K) (S * (U * U))).
    { apply bnd_abs; [clear - HPP; lia|]. clear T1 T2 Z1 Z3 Z4 Bs T0.
      assert (X0 : 0 <= mag m0 * mag e) by (apply Z.mul_nonneg_nonneg; lia). assert (Y0 : 0 <= mag l0 * U) by (apply Z.mul_nonneg_nonneg; lia).
      assert (X1 : 0 <= mag m1 * mag e) by (apply Z.mul_nonneg_nonneg; lia). assert (Y1 : 0 <= mag l1 * U) by (apply Z.mul_nonneg_nonneg; lia).
      assert (Q0 := square_slack P M _ _ (mag e) Ne X0 Y0 ltac:(clear - H1 H2; lia) V0). fold K in Q0. clear V0.
      assert (Q1 := square_slack P M _ _ (mag e) Ne X1 Y1 ltac:(clear - H1 H2; lia) V1). fold K in Q1. clear V1.
      replace (A * K - S * (U * U))
        with ((mag h1 * mag e) * (mag h1 * mag e) - (mag hi * U) * (mag hi * U)
              + ((mag m0 * mag e * (mag m0 * mag e) - mag l0 * U * (mag l0 * U))
                 + (mag m1 * mag e * (mag m1 * mag e) - mag l1 * U * (mag l1 * U)))) by (unfold A, L, S, K; ring).
      rewrite V. rewrite Z.sub_diag, Z.add_0_l.
      assert (X : (P * P) * (6 * M) * K <= (mag hi * U) * (mag hi * U)).
      { rewrite <- V. replace (mag h1 * mag e * (mag h1 * mag e)) with (mag h1 * mag h1 * K) by (unfold K; ring).
        apply Z.mul_le_mono_nonneg_r; [clear - HK; lia|exact Z2]. }
      transitivity ((P * P) * (6 * M * K)).
      - apply Z.mul_le_mono_nonneg_l; [clear - HPP; lia|]. etransitivity; [apply Z.abs_triangle|]. clear - Q0 Q1. lia.
      - replace (S * (U * U)) with (mag hi * U * (mag hi * U) + ((mag l0 * U) * (mag l0 * U) + (mag l1 * U) * (mag l1 * U))) by (unfold S; ring).
        pose proof (N2 _ Y0) as W0. pose proof (N2 _ Y1) as W1. clear - X W0 W1. lia. }
    assert (MP : M * U <= P * U) by (clear - H2 HU; apply Z.mul_le_mono_nonneg_r; lia).
    assert (PU0 : 0 <= P * U) by (clear - H1 H2 HU; apply Z.mul_nonneg_nonneg; lia).
    assert (T2' : P * Z.abs (mag lo * U - t) <= t + P * U) by (etransitivity; [exact T2|]; clear - T0 MP PU0; lia).
    split; auto. split.
    - destruct (add_square_ok fused lo h1 Fs' Fh1 Bs (conj B2 B3)) as (hh & HH & Fa & Ba & A1 & A2). cbv zeta in *.
      set (ss := add_square fused f md lo h1) in *.
      assert (T3 : bnd ((P - 1) * (P - 1) * (P * P - 1)) ((P + 1) * (P + 1) * (P * P + 1)) (P * P * (P * P)) (mag lo * U + hh) A).
      { unfold A. apply sum3_bnd with (t0 := t) (U := U); auto; [clear - H1 H2; lia|clear - HU; lia]. }
      pose proof (fin_mag_nonneg f Hf lo Fs') as Nlo.
      assert (SM : mag h1 * mag h1 <= 2 * (mag ss * U)).
      { pose proof (Z.abs_nonneg (mag ss * U - (mag lo * U + hh))). pose proof (Z.abs_nonneg (hh - mag h1 * mag h1)).
        assert (0 <= mag lo * U) by (apply Z.mul_nonneg_nonneg; lia).
        assert (X : 32768 * Z.abs (mag ss * U - (mag lo * U + hh)) <= mag lo * U + hh) by (clear - H A2 H1 H2; nia).
        assert (Y : 32768 * Z.abs (hh - mag h1 * mag h1) <= mag h1 * mag h1) by (clear - H0 A1 H1 H2; nia). clear - X Y H5. lia. }
      assert (R2 : 64 * ((P * P) * (P * P)) <= mag ss * U) by (clear - Z3 SM HPP; assert (0 <= P * P * (P * P)) by (apply Z.mul_nonneg_nonneg; lia); lia).
      destruct (root_ok ss Fa Ba R2) as [Fq Rb]. cbv zeta in *.
      pose proof (fin_mag_nonneg f Hf _ Fq) as Nq. set (q := fsqrt f md ss) in *.
      assert (P64 : 64 <= P) by (clear - H1 H2; lia).
      assert (K0 : 0 <= mag e * mag e) by (clear - Ne; nia).
      assert (SU0 : 0 <= S * (U * U)) by (apply Z.mul_nonneg_nonneg; [exact HS|clear - HUU; lia]).
      refine (final_ok e q _ 6 3 Fe (ex_intro _ j (conj Hj Ej)) Fq HS (or_intror (conj eq_refl eq_refl)) _).
      exact (hypot3_bnd P P64 (mag q) (mag ss * U) _ A (mag e * mag e) _ Nq K0 SU0 Rb A2 T3 BA).
    - intros E0. rewrite E0, Z.mul_0_l in T2'.
      assert (Tt : t <= 2 * U).
      { rewrite Z.abs_neq in T2' by (clear - T0; lia). clear - T2' H1 H2 HU T0. destruct (Z_le_gt_dec t (2 * U)); auto. exfalso. nia. }
      assert (HL5 : L <= 6 * U).
      { destruct (Z_le_gt_dec L (6 * U)) as [|G]; auto. exfalso. rewrite Z.abs_neq in T1 by (clear - Tt G HU; lia).
        clear - T1 Tt G H1 H2 HU. assert (P * (L - 2 * U) <= L + 2 * P * U) by nia. nia. }
      assert (LP : P * L <= mag h1 * mag h1).
      { transitivity (P * (6 * U)); [apply Z.mul_le_mono_nonneg_l; [clear - H1 H2; lia|exact HL5]|]. transitivity (6 * (P * (P * P)) * U); [|auto].
        clear - H1 H2 HU HPP. assert (P <= P * (P * P)) by nia. nia. }
      rewrite Z.abs_neq by (unfold S; clear - Q0' Q1'; lia). clear T1 T2 T2'.
      clear V0 V1.
      destruct BA as [BA _].
      (* times U^2 *)
      apply (Z.mul_le_mono_pos_r _ _ (U * U)); [auto|].
      assert (EH : mag hi * mag hi * (U * U) = mag h1 * mag h1 * K).
      { replace (mag hi * mag hi * (U * U)) with (mag hi * U * (mag hi * U)) by ring. rewrite <- V. unfold K. ring. }
      set (h2 := mag h1 * mag h1) in *. set (SU := S * (U * U)) in *.
      assert (HSU : 0 <= SU) by (apply Z.mul_nonneg_nonneg; lia).
      assert (X1 : P * (A * K) <= (P + 1) * (h2 * K)).
      { assert (P * A <= (P + 1) * h2) by (unfold A; lia). replace (P * (A * K)) with (P * A * K) by ring.
        replace ((P + 1) * (h2 * K)) with ((P + 1) * h2 * K) by ring. apply Z.mul_le_mono_nonneg_r; lia. }
      replace (P * - (mag hi * mag hi - S) * (U * U)) with (P * SU - P * (mag hi * mag hi * (U * U))) by (unfold SU; ring).
      rewrite EH. replace (6 * S * (U * U)) with (6 * SU) by (unfold SU; ring). set (W := h2 * K) in *.
      assert (X2 : (P * P - 1) * SU <= P * ((P + 1) * W)).
      { etransitivity; [exact BA|]. replace (P * P * (A * K)) with (P * (P * (A * K))) by ring. apply Z.mul_le_mono_nonneg_l; lia. }
      assert (X3 : (P - 1) * SU <= P * W).
      { apply (Z.mul_le_mono_pos_l _ _ (P + 1)); [lia|]. clear - X2. lia. }
      lia.
  Qed.
End Format.
