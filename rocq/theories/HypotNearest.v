(* C55: with rounding to nearest the root of a rounded square is the number
   itself, so that the two paths of hypot(x, y, z) agree. *)
From Coq Require Import ZArith List Bool Lia Psatz.
From Verif Require Import Prelude X86Lanes Fixed FloatSpec FloatRoundSpec FloatMathSpec FloatBits FloatArith FloatProofs
  FloatArithProofs FloatRound FloatRoundProofs FloatRoundTop FloatSign FloatTop FloatMath FloatMathProofs FloatFrexp FloatLogb FloatMathTop
  HypotSpec Hypot HypotArith HypotRound HypotScale HypotCore HypotTop.
Import ListNotations.
Open Scope Z_scope.

Section Format.
  Variable f : fmt.
  Hypothesis Hf : fmt_ok f.
  Local Notation fin := (fin f).
  Local Notation mag := (mag f).
  Lemma round_near a n k : 1 <= a -> fin a -> 0 <= k -> 0 <= n -> (mag (a - 1) + mag a) * 2 ^ k < 2 * n < (mag a + mag (a + 1)) * 2 ^ k ->
    round_bits f ToNearest false n k = a.
  Proof.
    intros A0 Fa Hk Hn B. assert (K : 0 < 2 ^ k) by (apply Z.pow_pos_nonneg; lia). unfold round_bits.
    destruct (floor_bits_spec f Hf (n / 2 ^ k)) as (Q0 & Q1 & Q2); [apply Z.div_pos; lia|]. set (q := floor_bits f (n / 2 ^ k)) in *.
    pose proof (mag_mono f Hf (a - 1) a ltac:(lia) ltac:(lia)) as M1. pose proof (mag_mono f Hf a (a + 1) ltac:(lia) ltac:(lia)) as M2.
    assert (N1 : mag q * 2 ^ k <= n). { pose proof (Z.mul_div_le n (2 ^ k) K). nia. }
    assert (N2 : n < mag (q + 1) * 2 ^ k). { pose proof (Z.mul_succ_div_gt n (2 ^ k) K). nia. }
    assert (L1 : mag (a - 1) * 2 ^ k < n) by nia. assert (L2 : n < mag (a + 1) * 2 ^ k) by nia.
    assert (QA : q = a \/ q = a - 1).
    { destruct (Z_lt_le_dec q (a - 1)) as [X|X].
      - exfalso. pose proof (mag_le f Hf (q + 1) (a - 1) ltac:(lia) ltac:(lia)). nia.
      - destruct (Z_lt_le_dec a q) as [Y|Y]; [|lia]. exfalso. pose proof (mag_le f Hf (a + 1) q ltac:(lia) ltac:(lia)). nia. }
    assert (QM : q <= finite_max_bits f). { rewrite (max_val f). destruct Fa. lia. }
    rewrite Z.min_l by auto. destruct QA as [-> | E].
    - destruct (Z.eqb_spec (mag a * 2 ^ k) n); auto. cbn [round_up_mag].
      destruct (Z.compare_spec (2 * n) ((mag a + mag (a + 1)) * 2 ^ k)); auto; lia.
    - rewrite E. destruct (Z.eqb_spec (mag (a - 1) * 2 ^ k) n); [lia|]. cbn [round_up_mag]. replace (a - 1 + 1) with a by lia.
      destruct (Z.compare_spec (2 * n) ((mag (a - 1) + mag a) * 2 ^ k)); auto; lia.
  Qed.
  Hypothesis Hp : 16 <= fp f.
  Hypothesis Hb : 4 * fp f + 8 <= bias f.
  Let M := 2 ^ mb f.
  Let B0 := 2 ^ (bias f - 1).
  Let U := 2 ^ unit f.
  Lemma square_bound r : 0 <= r < M -> let h1 := bias f * M + r in mag h1 * mag h1 <= mag (finite_max_bits f) * 2 ^ unit f.
  Proof.
    intros Hr. cbv zeta. pose proof (M_big f Hp) as HM. fold M in HM. pose proof (bias_pos f Hf) as HB.
    pose proof (U_val f Hf Hp Hb) as HU. fold U M B0 in HU. assert (P0 : 0 < B0) by (apply Z.pow_pos_nonneg; lia).
    assert (V1 : mag (bias f * M + r) = (M + r) * B0) by (rewrite (mag_qr f Hf) by (fold M; lia); reflexivity).
    set (k := M + r) in *. assert (Kb : M <= k <= 2 * M - 1) by (unfold k; lia).
    assert (BB : 2 <= B0) by (pose proof (B0_big f Hf Hp Hb) as X; fold M B0 in X; clear - X HM; nia).
    pose proof (Max_big f Hf Hp Hb) as X. fold U B0 in X. fold U. rewrite V1.
    assert (k * B0 <= 2 * U) by (rewrite HU; clear - Kb P0; nia).
    assert (0 <= k * B0) by (clear - Kb P0 HM; nia).
    assert (k * B0 * (k * B0) <= 2 * U * (2 * U)) by (apply Z.mul_le_mono_nonneg; lia).
    assert (0 <= U) by (clear - HU P0 HM; nia).
    assert (2 * U * (2 * U) <= 2 * U * B0 * U) by (clear - BB H2; nia).
    assert (2 * U * B0 * U <= mag (finite_max_bits f) * U) by (apply Z.mul_le_mono_nonneg_r; auto). lia.
  Qed.
  Lemma sqrt_square r : 0 <= r < M -> let h1 := bias f * M + r in fsqrt f ToNearest (fmul f ToNearest h1 h1) = h1.
  Proof.
    intros Hr. cbv zeta. set (h1 := bias f * M + r). pose proof (M_big f Hp) as HM. fold M in HM.
    pose proof (U_val f Hf Hp Hb) as HU. fold U M B0 in HU. pose proof (bias_pos f Hf) as HB.
    assert (P0 : 0 < B0) by (apply Z.pow_pos_nonneg; lia).
    assert (F1 : fin h1). { unfold h1. split; [nia|]. unfold inf_bits. fold M. rewrite (eb_bias f Hf). nia. }
    assert (V1 : mag h1 = (M + r) * B0). { unfold h1. rewrite (mag_qr f Hf) by (fold M; lia). reflexivity. }
    assert (Hk : 0 <= mag h1) by (apply (fin_mag_nonneg f Hf); auto).
    set (k := M + r) in *. assert (Kb : M <= k <= 2 * M - 1) by (unfold k; lia).
    assert (BB : 2 <= B0) by (pose proof (B0_big f Hf Hp Hb) as X; fold M B0 in X; clear - X HM; nia).
    assert (XB : mag h1 * mag h1 <= mag (finite_max_bits f) * 2 ^ unit f) by exact (square_bound r Hr).
    destruct (mul_err f Hf ToNearest h1 h1 F1 F1 XB) as [Fx Ex]. set (x := fmul f ToNearest h1 h1) in *. fold M U in Ex.
    rewrite (P_val f Hf ToNearest) in Ex. cbn [nearest] in Ex. fold M in Ex.
    assert (HH : M * U <= mag h1 * mag h1).
    { rewrite V1, HU. assert (M * B0 <= k * B0) by (clear - Kb P0; nia). assert (M * B0 * (M * B0) <= k * B0 * (k * B0)) by (apply Z.mul_le_mono_nonneg; nia).
      assert (M * (M * B0) <= M * B0 * (M * B0)) by (clear - HM P0; nia). lia. }
    rewrite Z.max_l in Ex by auto. set (v := mag x) in *. assert (Nv : 0 <= v) by (apply (fin_mag_nonneg f Hf); auto).
    assert (PU : 0 < U) by (rewrite HU; nia).
    (* 2 h - B0 < 2 sqrt (v U) < 2 h + B0 *)
    assert (BD : 2 * M * Z.abs (v * U - k * k * (B0 * B0)) <= k * k * (B0 * B0)).
    { rewrite V1 in Ex. replace (k * B0 * (k * B0)) with (k * k * (B0 * B0)) in Ex by ring. exact Ex. }
    assert (LO : (2 * k - 1) * B0 * ((2 * k - 1) * B0) < 4 * (v * U) < (2 * k + 1) * B0 * ((2 * k + 1) * B0)).
    { replace ((2 * k - 1) * B0 * ((2 * k - 1) * B0)) with (4 * (k * k * (B0 * B0)) - (4 * k - 1) * (B0 * B0)) by ring.
      replace ((2 * k + 1) * B0 * ((2 * k + 1) * B0)) with (4 * (k * k * (B0 * B0)) + (4 * k + 1) * (B0 * B0)) by ring.
      set (d := v * U - k * k * (B0 * B0)) in *. replace (4 * (v * U)) with (4 * (k * k * (B0 * B0)) + 4 * d) by (unfold d; ring).
      set (BB2 := B0 * B0) in *. assert (Q : 0 < BB2) by (apply Z.mul_pos_pos; auto).
      assert (A : 4 * Z.abs d < (4 * k - 1) * BB2).
      { assert (2 * M * (4 * Z.abs d) < 2 * M * ((4 * k - 1) * BB2)); [|clear - H HM; nia].
        assert (4 * (k * k) < 2 * M * (4 * k - 1)) by (clear - Kb HM; nia).
        assert (4 * (k * k) * BB2 < 2 * M * (4 * k - 1) * BB2) by (apply Z.mul_lt_mono_pos_r; auto). lia. }
      assert ((4 * k - 1) * BB2 <= (4 * k + 1) * BB2) by (clear - Q; nia). lia. }
    assert (V0 : 0 < v).
    { destruct (Z.eq_dec v 0) as [E|]; [|lia]. rewrite E in LO. pose proof (Z.square_nonneg ((2 * k - 1) * B0)). exfalso. clear - LO H. lia. }
    unfold fsqrt. rewrite (fin_decode f Hf) by auto. fold v. destruct (Z.eqb_spec v 0) as [|_]; [lia|]. fold U.
    set (n := 4 * (v * U)) in *. cbv zeta. assert (Hn : 0 <= n) by (pose proof (Z.mul_pos_pos v U V0 PU); unfold n; lia).
    pose proof (Z.sqrt_spec n Hn) as [S1 S2]. pose proof (Z.sqrt_nonneg n) as S0. set (g := Z.sqrt n) in *.
    destruct (Z.eq_dec r 0) as [R0|R0].
    { (* the square of one is exact *)
      assert (KM : k = M) by (unfold k; lia).
      assert (Xe : v * U = k * B0 * (k * B0)).
      { unfold v, x. rewrite (fmul_fin f Hf) by auto. rewrite V1. rewrite KM at 1. rewrite <- HU. rewrite (Z.mul_comm U).
        rewrite <- V1. unfold U. rewrite (round_bits_exact f Hf); [fold U; rewrite V1, KM, HU; ring|apply (unit_nonneg f Hf)|auto]. }
      assert (Eg : n = (2 * mag h1) * (2 * mag h1)) by (unfold n; rewrite Xe, V1; ring).
      assert (EG : g = 2 * mag h1) by (unfold g; rewrite Eg; apply Z.sqrt_square; lia).
      rewrite EG. rewrite <- Eg, Z.eqb_refl. rewrite (Z.mul_comm 2). change 2 with (2 ^ 1). apply (round_bits_exact f Hf); [lia|auto]. }
    assert (G1 : (2 * k - 1) * B0 <= g) by (apply Z.lt_succ_r; apply Z.square_lt_simpl_nonneg; lia).
    assert (G2 : g < (2 * k + 1) * B0) by (apply Z.square_lt_simpl_nonneg; [clear - P0 Kb HM; nia|lia]).
    assert (W1 : mag (h1 - 1) = (k - 1) * B0).
    { unfold h1. replace (bias f * M + r - 1) with (bias f * M + (r - 1)) by ring. rewrite (mag_qr f Hf) by (fold M; lia).
      fold M B0. unfold k. f_equal. lia. }
    assert (W2 : mag (h1 + 1) = (k + 1) * B0).
    { unfold h1. rewrite <- Z.add_assoc. destruct (Z.eq_dec (r + 1) M) as [E|].
      - rewrite E. replace (bias f * M + M) with ((bias f + 1) * M + 0) by ring. rewrite (mag_qr f Hf) by (fold M; lia). fold M.
        replace (bias f + 1 - 1) with (1 + (bias f - 1)) by lia. rewrite Z.pow_add_r by lia. fold B0. unfold k. change (2 ^ 1) with 2. replace r with (M - 1) by lia. ring.
      - rewrite (mag_qr f Hf) by (fold M; lia). fold M B0. unfold k. f_equal. lia. }
    assert (H1 : 1 <= h1) by (unfold h1; clear - Hr HM HB; nia).
    destruct (Z.eqb_spec (g * g) n) as [Eg|Eg].
    - assert (NE : (2 * k - 1) * B0 <> g) by (intros X; rewrite <- X in Eg; lia).
      apply round_near; auto; try lia; rewrite ?W1, ?W2, V1; change (2 ^ 1) with 2; lia.
    - apply round_near; auto; try lia; rewrite ?W1, ?W2, V1; change (2 ^ 2) with 4; lia.
  Qed.
  (* nothing to add: the larger number itself *)
  Lemma core3_zero c fused hi l0 l1 : fin hi -> M <= hi -> lo3 f ToNearest c hi l0 l1 = 0 -> core3 f ToNearest c fused hi l0 l1 = hi.
  Proof.
    intros Fh Q L. unfold core3. rewrite L. pose proof (M_big f Hp) as HM. fold M in HM.
    pose proof (scale_normal f Hf Hp Hb ToNearest hi Fh Q) as S. cbv zeta in S.
    destruct (gnormal f Hf Hp Hb ToNearest hi Fh Q) as (G1 & G2 & _). rewrite G2, G1. rewrite (sc_eq _ _ _ _ _ _ S).
    fold M in S |- *. set (r := hi mod M) in *. assert (Hr : 0 <= r < M) by (apply Z.mod_pos_bound; lia).
    assert (F1 := sc_h _ _ _ _ _ _ S). assert (Fe := sc_e _ _ _ _ _ _ S). assert (V := sc_val _ _ _ _ _ _ S).
    set (h1 := bias f * M + r) in *. set (e := Z.land hi (inf_bits f)) in *. clear S.
    assert (A : add_square fused f ToNearest 0 h1 = fmul f ToNearest h1 h1).
    { destruct fused; cbn [add_square].
      - rewrite (ffma_fin f Hf), (fmul_fin f Hf) by (auto; apply (fin_0 f Hf)). rewrite (mag_0 f Hf). rewrite Z.mul_0_l, Z.add_0_r. auto.
      - assert (XB : mag h1 * mag h1 <= mag (finite_max_bits f) * 2 ^ unit f).
        { pose proof (square_bound r Hr) as X. cbv zeta in X. exact X. }
        destruct (mul_err f Hf ToNearest h1 h1 F1 F1 XB) as [Fx _]. cbv zeta in Fx.
        rewrite (fadd_fin f Hf) by (auto; apply (fin_0 f Hf)). rewrite (mag_0 f Hf), Z.add_0_l.
        set (x := fmul f ToNearest h1 h1) in *. replace (mag x) with (mag x * 2 ^ 0) by (rewrite Z.mul_1_r; auto).
        apply (round_bits_exact f Hf); [lia|auto]. }
    rewrite A. unfold h1. rewrite (sqrt_square r Hr). fold h1. rewrite (fmul_fin f Hf) by auto. rewrite (Z.mul_comm (mag e)), V.
    apply (round_bits_exact f Hf); [apply (unit_nonneg f Hf)|auto].
  Qed.
  Lemma fast3_is_slow3 c fused t x y z : pattern f x -> pattern f y -> pattern f z ->
    isnormal_lane t f x = Some true -> isnormal_lane t f y = Some true -> isnormal_lane t f z = Some true ->
    hypot3_fast c fused f ToNearest x y z = hypot3_slow c fused t f ToNearest x y z.
  Proof.
    intros Hx Hy Hz Ex Ey Ez. pose proof (M_big f Hp) as HM. fold M in HM.
    apply (isnormal_decode f Hf) in Ex, Ey, Ez; auto. fold M in Ex, Ey, Ez.
    destruct (decode f x) as [|?|s m] eqn:Dx; try discriminate. destruct (decode f y) as [|?|s' m'] eqn:Dy; try discriminate.
    destruct (decode f z) as [|?|s'' m''] eqn:Dz; try discriminate.
    symmetry in Ex, Ey, Ez. apply Z.leb_le in Ex, Ey, Ez.
    destruct (abs_fin f Hf ToNearest x s m Hx Dx) as [Fa Ea]. destruct (abs_fin f Hf ToNearest y s' m' Hy Dy) as [Fb Eb].
    destruct (abs_fin f Hf ToNearest z s'' m'' Hz Dz) as [Fd Ed].
    assert (NB : forall a, fin a -> M <= mag a -> M <= a).
    { intros a Fa' La. destruct (Z_le_gt_dec M a); auto. exfalso. rewrite (mag_small f a) in La by (fold M; destruct Fa'; lia). lia. }
    rewrite Ea in Ex. rewrite Eb in Ey. rewrite Ed in Ez. apply NB in Ex; auto. apply NB in Ey; auto. apply NB in Ez; auto.
    destruct (minmax3 f Hf ToNearest _ _ _ Fa Fb Fd) as (Fh & F0 & F1 & L0 & L1 & E & Q). cbv zeta in Fh, F0, F1, L0, L1, E, Q.
    specialize (Q (fun a => M <= a) Ex Ey Ez). cbv beta in Q.
    rewrite (fast3_eq f Hf Hp Hb ToNearest c fused x y z _ _ _ (fabs_val f Hf x) (fabs_val f Hf y) (fabs_val f Hf z) Fh Q).
    rewrite slow3_eq. cbv zeta. rewrite !(fabs_val f Hf), !(abs_inf f Hf) by auto. rewrite Dx, Dy, Dz. cbn [is_infinite orb].
    rewrite (unord_nan f Hf) by (auto; apply (fadd_pattern f Hf)). rewrite (add_nan f Hf) by (rewrite Dy, Dz; auto).
    rewrite Dx, Dy, Dz. cbn [is_not_a_number orb andb].
    destruct (feq f (lo3 f ToNearest c _ _ _) (zero_bits f)) eqn:Z0; auto. apply core3_zero; auto.
    destruct (hypot3_ok f Hf Hp Hb ToNearest c fused _ _ _ _ _ _ (gscaling f Hf Hp Hb ToNearest _ Fh ltac:(lia)) Fh F0 F1 L0 L1) as (Fl & _). cbv zeta in Fl.
    fold (lo3 f ToNearest c (fmax_lane f (fmax_lane f (mag_bits f x) (mag_bits f y)) (mag_bits f z)) (fmin_lane f (mag_bits f z) (fmax_lane f (mag_bits f x) (mag_bits f y))) (fmin_lane f (mag_bits f y) (mag_bits f x))) in Fl.
    rewrite (zero_test f Hf ToNearest _ Fl) in Z0. apply Z.eqb_eq in Z0. exact Z0.
  Qed.
End Format.

Lemma nth_combine_inv {A B} : forall (l : list A) (m : list B) i a b, nth_error (combine l m) i = Some (a, b) -> nth_error l i = Some a /\ nth_error m i = Some b.
Proof. induction l; intros [|b0 m] [|i] a0 b H; try discriminate; cbn in *; [inversion H; auto|auto]. Qed.
Lemma nth_combine_eq {A B} : forall (l : list A) (m : list B) i, nth_error (combine l m) i =
  match nth_error l i, nth_error m i with Some a, Some b => Some (a, b) | _, _ => None end.
Proof. induction l as [|a l IH]; intros [|b m] [|i]; cbn; auto. destruct (nth_error l i); auto. Qed.
Lemma hypot3_reg_is c fused t f x y z : hypot_fmt f -> target_ok t /\ dq_ok t -> Forall (pattern f) x -> Forall (pattern f) y -> Forall (pattern f) z ->
  hypot3_reg c fused t f ToNearest x y z =
  Some (map (fun p => hypot3_slow c fused t f ToNearest (fst p) (fst (snd p)) (snd (snd p))) (combine x (combine y z))).
Proof.
  intros Hr HT HX HY HZ. destruct (hypot_fmt_ok f Hr) as (Hf & Hp & Hb). unfold hypot3_reg.
  destruct (normals_some t f x HT) as (nx & -> & NX). destruct (normals_some t f y HT) as (ny & -> & NY). destruct (normals_some t f z HT) as (nz & -> & NZ).
  destruct (forallb (fun b => b) nx && forallb (fun b => b) ny && forallb (fun b => b) nz) eqn:A; auto.
  apply andb_true_iff in A. destruct A as [A AZ]. apply andb_true_iff in A. destruct A as [AX AY].
  f_equal. apply map_ext_in. intros [a [b d]] Hin. cbn [fst snd]. destruct (In_nth_error _ _ Hin) as [i Hi].
  destruct (nth_combine_inv _ _ _ _ _ Hi) as [Ha Hbd]. destruct (nth_combine_inv _ _ _ _ _ Hbd) as [Hb' Hd].
  destruct (NX i a Ha) as (p & P1 & P2). destruct (NY i b Hb') as (q & Q1 & Q2). destruct (NZ i d Hd) as (w & W1 & W2).
  rewrite (forallb_nth _ i p AX P1) in P2. rewrite (forallb_nth _ i q AY Q1) in Q2. rewrite (forallb_nth _ i w AZ W1) in W2.
  rewrite Forall_forall in HX, HY, HZ.
  apply (fast3_is_slow3 f Hf Hp Hb); auto; [apply HX|apply HY|apply HZ]; eapply nth_error_In; eauto.
Qed.
Lemma c55_independent3 c fused t f x y z x' y' z' r r' i j : hypot_fmt f -> target_ok t /\ dq_ok t ->
  Forall (pattern f) x -> Forall (pattern f) y -> Forall (pattern f) z -> Forall (pattern f) x' -> Forall (pattern f) y' -> Forall (pattern f) z' ->
  hypot3_reg c fused t f ToNearest x y z = Some r -> hypot3_reg c fused t f ToNearest x' y' z' = Some r' ->
  nth_error x i = nth_error x' j -> nth_error y i = nth_error y' j -> nth_error z i = nth_error z' j -> nth_error r i = nth_error r' j.
Proof.
  intros Hr HT HX HY HZ HX' HY' HZ' E E' EX EY EZ. rewrite hypot3_reg_is in E, E' by auto. inversion E. inversion E'. clear E E'. subst r r'.
  rewrite !nth_error_map. f_equal. rewrite !nth_combine_eq, EX, EY, EZ. reflexivity.
Qed.
