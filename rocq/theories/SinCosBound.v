(* Magnitudes and errors of computed numbers in multiples of 2^-100: the bounds follow
   the operations and are evaluated. *)
From Coq Require Import ZArith Reals Lra Lia List Bool.
From Verif Require Import FloatSpec FloatRoundSpec FloatBits FloatArith FloatRound FloatProofs FloatArithProofs
  Hypot HypotRound SinCos SinCosReal.
Import ListNotations.
Open Scope Z_scope.
Open Scope R_scope.

(* numbers in multiples of 2^-100 *)
Definition qv (z : Z) : R := IZR z / IZR (2 ^ 100).
Lemma c_pos : 0 < IZR (2 ^ 100). Proof. apply IZR_lt. reflexivity. Qed.
Lemma qv_plus a b : qv (a + b) = qv a + qv b.
Proof. unfold qv. rewrite plus_IZR. unfold Rdiv. ring. Qed.
Lemma qv_le a b : (a <= b)%Z -> qv a <= qv b.
Proof. intros L. unfold qv. apply Rmult_le_compat_r; [apply Rlt_le, Rinv_0_lt_compat, c_pos|apply IZR_le; auto]. Qed.
Lemma qv_0 : qv 0 = 0. Proof. unfold qv, Rdiv. apply Rmult_0_l. Qed.
(* z / d, rounded up *)
Lemma div_up z d : (0 < d)%Z -> IZR z / IZR d <= IZR (z / d + 1).
Proof.
  intros Hd. pose proof (Z.div_mod z d ltac:(lia)) as D. pose proof (Z.mod_pos_bound z d Hd) as B. set (q := (z / d)%Z) in *.
  assert (Hb : 0 < IZR d) by (apply IZR_lt; auto).
  apply Rmult_le_reg_r with (IZR d); auto. unfold Rdiv. rewrite Rmult_assoc, Rinv_l, Rmult_1_r by lra. rewrite <- mult_IZR. apply IZR_le. nia.
Qed.
Definition mulz (a b : Z) : Z := (a * b / 2 ^ 100 + 1)%Z.
Lemma mulz_ok a b : qv a * qv b <= qv (mulz a b).
Proof.
  pose proof c_pos as C. unfold qv, mulz. pose proof (div_up (a * b) (2 ^ 100) ltac:(reflexivity)) as D. rewrite mult_IZR in D.
  set (c := IZR (2 ^ 100)) in *. apply Rmult_le_reg_r with c; auto.
  replace (IZR a / c * (IZR b / c) * c) with (IZR a * IZR b / c) by (field; lra). unfold Rdiv at 2. rewrite Rmult_assoc, Rinv_l, Rmult_1_r by lra. auto.
Qed.

Record bound := { bm : Z; be : Z }.
(* x stands for a number within be of X, and X is at most bm in magnitude *)
Definition apx (f : fmt) (x : Z) (X : R) (a : bound) : Prop :=
  exists v, rep f x v /\ Rabs (v - X) <= qv (be a) /\ Rabs X <= qv (bm a).

Section Format.
  Variable f : fmt.
  Hypothesis Uf : usual f.
  Lemma u_pos : 0 < ulp f.
  Proof. apply Rinv_0_lt_compat, IZR_lt, Z.pow_pos_nonneg; [lia|]. destruct (us_ok f Uf) as [? _]. lia. Qed.
  Lemma t_pos : 0 < tiny. Proof. apply Rinv_0_lt_compat, IZR_lt. reflexivity. Qed.

  (* rounding a number of at most m *)
  Definition rnd (m : Z) : Z := (m / 2 ^ fp f + 2)%Z.
  Lemma rnd_ok m x : x <= qv m -> ulp f * x + tiny <= qv (rnd m).
  Proof.
    intros L. pose proof u_pos as UP. pose proof (Rmult_le_compat_l (ulp f) _ _ ltac:(lra) L) as L'. unfold rnd.
    replace (m / 2 ^ fp f + 2)%Z with ((m / 2 ^ fp f + 1) + 1)%Z by lia. rewrite qv_plus.
    assert (T : tiny <= qv 1).
    { unfold tiny, qv, Rdiv. rewrite Rmult_1_l. apply Rinv_le_contravar; [apply c_pos|apply IZR_le; vm_compute; discriminate]. }
    assert (D : ulp f * qv m <= qv (m / 2 ^ fp f + 1)).
    { assert (P : (0 < 2 ^ fp f)%Z) by (apply Z.pow_pos_nonneg; [lia|]; destruct (us_ok f Uf) as [? _]; lia).
      pose proof (div_up m _ P) as D. unfold qv, ulp. pose proof c_pos as C. replace (/ IZR (2 ^ fp f) * (IZR m / IZR (2 ^ 100))) with (IZR m / IZR (2 ^ fp f) * / IZR (2 ^ 100)) by (unfold Rdiv; ring).
      apply Rmult_le_compat_r; auto. apply Rlt_le, Rinv_0_lt_compat; auto. }
    lra.
  Qed.
  (* the exact product of two approximate numbers: error and magnitude *)
  Definition prod_err (a b : bound) : Z := (mulz (be a) (bm b) + mulz (bm a) (be b) + mulz (be a) (be b))%Z.
  Definition prod_mag (a b : bound) : Z := mulz (bm a + be a) (bm b + be b).
  Definition prod_bm (a b : bound) : Z := mulz (bm a) (bm b).
  Lemma prod_ok x y X Y a b : Rabs (x - X) <= qv (be a) -> Rabs X <= qv (bm a) -> Rabs (y - Y) <= qv (be b) -> Rabs Y <= qv (bm b) ->
    Rabs (x * y - X * Y) <= qv (prod_err a b) /\ Rabs (x * y) <= qv (prod_mag a b) /\ Rabs (X * Y) <= qv (prod_bm a b).
  Proof.
    intros E M E' M'. unfold prod_err, prod_mag, prod_bm. rewrite !qv_plus.
    pose proof (Rabs_pos (x - X)). pose proof (Rabs_pos X). pose proof (Rabs_pos (y - Y)). pose proof (Rabs_pos Y).
    assert (MX : Rabs x <= qv (bm a + be a)) by (rewrite qv_plus; replace x with (X + (x - X)) by ring; eapply Rle_trans; [apply Rabs_triang|]; lra).
    assert (MY : Rabs y <= qv (bm b + be b)) by (rewrite qv_plus; replace y with (Y + (y - Y)) by ring; eapply Rle_trans; [apply Rabs_triang|]; lra).
    split; [|split].
    - replace (x * y - X * Y) with ((x - X) * Y + X * (y - Y) + (x - X) * (y - Y)) by ring.
      eapply Rle_trans; [apply Rabs_triang|]. apply Rplus_le_compat.
      + eapply Rle_trans; [apply Rabs_triang|]. rewrite !Rabs_mult. apply Rplus_le_compat; (eapply Rle_trans; [|apply mulz_ok]); apply Rmult_le_compat; auto.
      + rewrite Rabs_mult. eapply Rle_trans; [|apply mulz_ok]. apply Rmult_le_compat; auto.
    - rewrite Rabs_mult. eapply Rle_trans; [|apply mulz_ok]. apply Rmult_le_compat; auto using Rabs_pos.
    - rewrite Rabs_mult. eapply Rle_trans; [|apply mulz_ok]. apply Rmult_le_compat; auto.
  Qed.
  Definition small (q : Z) : bool := (q <=? 2 ^ 200)%Z.
  Lemma small_ok q x : small q = true -> x <= qv q -> x <= huge.
  Proof.
    intros S L. apply Z.leb_le in S. apply qv_le in S. replace huge with (qv (2 ^ 200)); [lra|]. unfold qv, huge.
    replace (2 ^ 200)%Z with (2 ^ 100 * 2 ^ 100)%Z by reflexivity. rewrite mult_IZR. pose proof c_pos. field. lra.
  Qed.

  Definition bmul (a b : bound) : bound := {| bm := prod_bm a b; be := prod_err a b + rnd (prod_mag a b) |}.
  Lemma apx_mul x y X Y a b : apx f x X a -> apx f y Y b -> small (prod_mag a b) = true -> apx f (fmul f ToNearest x y) (X * Y) (bmul a b).
  Proof.
    intros (v & Hv & E & M) (w & Hw & E' & M') S. destruct (prod_ok v w X Y a b E M E' M') as (P1 & P2 & P3).
    destruct (fmul_rep f Uf x y v w Hv Hw (small_ok _ _ S P2)) as (r & Hr & Er). exists r. split; auto. unfold bmul. cbn [bm be].
    split; auto.
    replace (r - X * Y) with ((v * w - X * Y) + (r - v * w)) by ring. eapply Rle_trans; [apply Rabs_triang|].
    rewrite qv_plus. pose proof (rnd_ok _ _ P2). lra.
  Qed.

  (* x * y + d with or without a rounded product *)
  Definition sum_mag (a b d : bound) : Z := (prod_mag a b + rnd (prod_mag a b) + (bm d + be d))%Z.
  Definition bfma (a b d : bound) : bound :=
    {| bm := prod_bm a b + bm d; be := prod_err a b + be d + (rnd (prod_mag a b) + rnd (sum_mag a b d)) |}.
  Definition fma_small (a b d : bound) : bool := small (prod_mag a b) && small (sum_mag a b d).
  Lemma apx_mag x X a : Rabs (x - X) <= qv (be a) -> Rabs X <= qv (bm a) -> Rabs x <= qv (bm a) + qv (be a).
  Proof. intros. replace x with (X + (x - X)) by ring. eapply Rle_trans; [apply Rabs_triang|]. lra. Qed.
  Lemma apx_mul_add c x y d X Y D a b e : apx f x X a -> apx f y Y b -> apx f d D e -> fma_small a b e = true ->
    apx f (mul_add c f ToNearest x y d) (X * Y + D) (bfma a b e).
  Proof.
    intros (v & Hv & E & M) (w & Hw & E' & M') (z & Hz & E'' & M'') S. apply andb_true_iff in S. destruct S as [S1 S2].
    destruct (prod_ok v w X Y a b E M E' M') as (P1 & P2 & P3). pose proof (apx_mag _ _ _ E'' M'') as P4. pose proof u_pos as UP. pose proof t_pos as TP.
    pose proof (rnd_ok _ _ P2) as P5.
    assert (RP : 0 <= ulp f * Rabs (v * w)) by (apply Rmult_le_pos; [lra|apply Rabs_pos]).
    assert (G : exists r, rep f (mul_add c f ToNearest x y d) r /\ Rabs (r - (v * w + z)) <= qv (rnd (prod_mag a b)) + qv (rnd (sum_mag a b e))).
    { assert (SM : forall q, Rabs (q - v * w) <= qv (rnd (prod_mag a b)) -> Rabs (q + z) <= qv (sum_mag a b e)).
      { intros q B. unfold sum_mag. rewrite !qv_plus. replace (q + z) with (v * w + (q - v * w) + z) by ring.
        eapply Rle_trans; [apply Rabs_triang|]. apply Rplus_le_compat; auto. eapply Rle_trans; [apply Rabs_triang|]. lra. }
      assert (SR : 0 <= qv (rnd (prod_mag a b))) by lra.
      unfold mul_add. destruct c.
      - assert (SV : Rabs (v * w + z) <= qv (sum_mag a b e)).
        { apply SM. replace (v * w - v * w) with 0 by ring. rewrite Rabs_R0. auto. }
        destruct (ffma_rep f Uf x y d v w z Hv Hw Hz (small_ok _ _ S2 SV)) as (r & Hr & Er). exists r. split; auto.
        pose proof (rnd_ok _ _ SV). lra.
      - destruct (fmul_rep f Uf x y v w Hv Hw (small_ok _ _ S1 P2)) as (q & Hq & Eq).
        assert (BQ : Rabs (q - v * w) <= qv (rnd (prod_mag a b))) by lra.
        pose proof (SM q BQ) as SV.
        destruct (fadd_rep f Uf _ d q z Hq Hz (small_ok _ _ S2 SV)) as (r & Hr & Er). exists r. split; auto.
        replace (r - (v * w + z)) with ((q - v * w) + (r - (q + z))) by ring. eapply Rle_trans; [apply Rabs_triang|].
        pose proof (rnd_ok _ _ SV). lra. }
    destruct G as (r & Hr & Er). exists r. split; auto. unfold bfma. cbn [bm be].
    split.
    - replace (r - (X * Y + D)) with ((v * w - X * Y) + (z - D) + (r - (v * w + z))) by ring.
      eapply Rle_trans; [apply Rabs_triang|]. rewrite !qv_plus.
      pose proof (Rabs_triang (v * w - X * Y) (z - D)). lra.
    - eapply Rle_trans; [apply Rabs_triang|]. rewrite qv_plus. lra.
  Qed.
  Lemma apx_neg x X a : apx f x X a -> apx f (fneg f x) (- X) a.
  Proof.
    intros (v & Hv & E & M). exists (- v). split; [apply (fneg_rep f Uf); auto|].
    replace (- v - - X) with (- (v - X)) by ring. rewrite !Rabs_Ropp. auto.
  Qed.
  Lemma apx_mul_sub c x y d X Y D a b e : apx f x X a -> apx f y Y b -> apx f d D e -> fma_small a b e = true ->
    apx f (mul_sub c f ToNearest x y d) (X * Y - D) (bfma a b e).
  Proof.
    intros Hx Hy Hd S. exact (apx_mul_add c x y (fneg f d) X Y (- D) a b e Hx Hy (apx_neg _ _ _ Hd) S).
  Qed.

  Definition badd (a b : bound) : bound := {| bm := bm a + bm b; be := be a + be b + rnd (bm a + be a + (bm b + be b)) |}%Z.
  Lemma apx_add x y X Y a b : apx f x X a -> apx f y Y b -> small (bm a + be a + (bm b + be b))%Z = true ->
    apx f (fadd f ToNearest x y) (X + Y) (badd a b).
  Proof.
    intros (v & Hv & E & M) (w & Hw & E' & M') S. pose proof (apx_mag _ _ _ E M) as P1. pose proof (apx_mag _ _ _ E' M') as P2.
    assert (P : Rabs (v + w) <= qv (bm a + be a + (bm b + be b))) by (rewrite !qv_plus; eapply Rle_trans; [apply Rabs_triang|]; lra).
    destruct (fadd_rep f Uf x y v w Hv Hw (small_ok _ _ S P)) as (r & Hr & Er). exists r. split; auto. unfold badd. cbn [bm be].
    split.
    - replace (r - (X + Y)) with ((v - X) + (w - Y) + (r - (v + w))) by ring. eapply Rle_trans; [apply Rabs_triang|].
      pose proof (rnd_ok _ _ P). rewrite (qv_plus (be a + be b)), (qv_plus (be a)). pose proof (Rabs_triang (v - X) (w - Y)). lra.
    - rewrite qv_plus. eapply Rle_trans; [apply Rabs_triang|]. lra.
  Qed.
  Lemma apx_sub x y X Y a b : apx f x X a -> apx f y Y b -> small (bm a + be a + (bm b + be b))%Z = true ->
    apx f (fsub f ToNearest x y) (X - Y) (badd a b).
  Proof. intros Hx Hy S. exact (apx_add x (fneg f y) X (- Y) a b Hx (apx_neg _ _ _ Hy) S). Qed.

  (* x * y - p * q in its three forms *)
  Definition bfms (a b p q : bound) : bound :=
    {| bm := prod_bm a b + prod_bm p q;
       be := prod_err a b + prod_err p q + (rnd (prod_mag a b) + rnd (prod_mag p q) + rnd (prod_mag a b + rnd (prod_mag a b) + (prod_mag p q + rnd (prod_mag p q)))) |}.
  Definition fms_small (a b p q : bound) : bool :=
    small (prod_mag a b) && small (prod_mag p q) && small (prod_mag a b + rnd (prod_mag a b) + (prod_mag p q + rnd (prod_mag p q)))%Z.
  Lemma apx_mul_sub_mul c x y z t X Y Z T a b p q : apx f x X a -> apx f y Y b -> apx f z Z p -> apx f t T q -> fms_small a b p q = true ->
    apx f (mul_sub_mul c f ToNearest x y z t) (X * Y - Z * T) (bfms a b p q).
  Proof.
    intros (v & Hv & E & M) (w & Hw & E' & M') (v1 & Hv1 & E1 & M1) (w1 & Hw1 & E1' & M1') S.
    apply andb_true_iff in S. destruct S as [S S3]. apply andb_true_iff in S. destruct S as [S1 S2].
    destruct (prod_ok v w X Y a b E M E' M') as (P1 & P2 & P3). destruct (prod_ok v1 w1 Z T p q E1 M1 E1' M1') as (Q1 & Q2 & Q3).
    pose proof u_pos as UP. pose proof t_pos as TP.
    pose proof (rnd_ok _ _ P2) as P5. pose proof (rnd_ok _ _ Q2) as Q5.
    assert (RP : 0 <= ulp f * Rabs (v * w)) by (apply Rmult_le_pos; [lra|apply Rabs_pos]).
    assert (RQ : 0 <= ulp f * Rabs (v1 * w1)) by (apply Rmult_le_pos; [lra|apply Rabs_pos]).
    set (sm := (prod_mag a b + rnd (prod_mag a b) + (prod_mag p q + rnd (prod_mag p q)))%Z) in *.
    assert (G : exists r, rep f (mul_sub_mul c f ToNearest x y z t) r /\
      Rabs (r - (v * w - v1 * w1)) <= qv (rnd (prod_mag a b)) + qv (rnd (prod_mag p q)) + qv (rnd sm)).
    { assert (SM : forall g h, Rabs (g - v * w) <= qv (rnd (prod_mag a b)) -> Rabs (h - v1 * w1) <= qv (rnd (prod_mag p q)) -> Rabs (g - h) <= qv sm).
      { intros g h B B'. unfold sm. rewrite !qv_plus. replace (g - h) with (v * w + (g - v * w) + - (v1 * w1 + (h - v1 * w1))) by ring.
        eapply Rle_trans; [apply Rabs_triang|]. rewrite Rabs_Ropp. apply Rplus_le_compat; (eapply Rle_trans; [apply Rabs_triang|]); lra. }
      assert (Z0 : forall e, Rabs (e - e) = 0) by (intros; replace (e - e) with 0 by ring; apply Rabs_R0).
      unfold mul_sub_mul. destruct c.
      - destruct (fmul_rep f Uf x y v w Hv Hw (small_ok _ _ S1 P2)) as (g & Hg & Eg).
        destruct (fmul_rep f Uf z t v1 w1 Hv1 Hw1 (small_ok _ _ S2 Q2)) as (h & Hh & Eh).
        assert (SV : Rabs (g - h) <= qv sm) by (apply SM; lra).
        destruct (fsub_rep f Uf _ _ g h Hg Hh (small_ok _ _ S3 SV)) as (r & Hr & Er). exists r. split; auto.
        replace (r - (v * w - v1 * w1)) with ((g - v * w) + - (h - v1 * w1) + (r - (g - h))) by ring.
        eapply Rle_trans; [apply Rabs_triang|]. pose proof (Rabs_triang (g - v * w) (- (h - v1 * w1))) as TR. rewrite Rabs_Ropp in TR.
        pose proof (rnd_ok _ _ SV). lra.
      - destruct (fmul_rep f Uf z t v1 w1 Hv1 Hw1 (small_ok _ _ S2 Q2)) as (h & Hh & Eh).
        assert (SV : Rabs (v * w - h) <= qv sm) by (apply SM; rewrite ?Z0; lra).
        destruct (ffma_rep f Uf x y _ v w (- h) Hv Hw (fneg_rep f Uf _ _ Hh) (small_ok _ _ S3 SV)) as (r & Hr & Er). exists r. split; auto.
        replace (r - (v * w - v1 * w1)) with (- (h - v1 * w1) + (r - (v * w + - h))) by ring.
        eapply Rle_trans; [apply Rabs_triang|]. rewrite Rabs_Ropp.
        pose proof (rnd_ok _ _ SV). unfold Rminus in *. lra.
      - destruct (fmul_rep f Uf x y v w Hv Hw (small_ok _ _ S1 P2)) as (g & Hg & Eg).
        assert (SV : Rabs (g - v1 * w1) <= qv sm) by (apply SM; rewrite ?Z0; lra).
        assert (EE : - v1 * w1 + g = g - v1 * w1) by ring.
        destruct (ffma_rep f Uf _ t _ (- v1) w1 g (fneg_rep f Uf _ _ Hv1) Hw1 Hg) as (r & Hr & Er); [rewrite EE; exact (small_ok _ _ S3 SV)|].
        rewrite EE in Er. exists r. split; auto.
        replace (r - (v * w - v1 * w1)) with ((g - v * w) + (r - (g - v1 * w1))) by ring.
        eapply Rle_trans; [apply Rabs_triang|]. pose proof (rnd_ok _ _ SV). lra. }
    destruct G as (r & Hr & Er). exists r. split; auto. unfold bfms. cbn [bm be]. fold sm. split.
    - replace (r - (X * Y - Z * T)) with ((v * w - X * Y) + - (v1 * w1 - Z * T) + (r - (v * w - v1 * w1))) by ring.
      eapply Rle_trans; [apply Rabs_triang|]. pose proof (Rabs_triang (v * w - X * Y) (- (v1 * w1 - Z * T))) as TR. rewrite Rabs_Ropp in TR.
      rewrite (qv_plus (_ + _)), (qv_plus (prod_err a b)), (qv_plus (_ + _)), (qv_plus (rnd (prod_mag a b))). lra.
    - unfold Rminus. eapply Rle_trans; [apply Rabs_triang|]. rewrite Rabs_Ropp, qv_plus. lra.
  Qed.

  (* a literal: plus or minus m / 2^k *)
  Definition blit (m : Z) (k : positive) : bound := {| bm := m * 2 ^ 100 / 2 ^ Zpos k + 1; be := 0 |}.
  Lemma lit_rep s m k : (0 <= m <= 2 ^ fp f)%Z -> (Zpos k <= unit f)%Z -> rep f (lit f s m (- Zpos k)) (IZR (num s m) / IZR (2 ^ Zpos k)).
  Proof.
    intros Hm Hk. pose proof (us_ok f Uf) as Hf.
    assert (PE : (2 * 2 ^ mb f = 2 ^ fp f)%Z).
    { unfold mb. rewrite <- Z.pow_succ_r by (destruct Hf as [? _]; lia). f_equal. lia. }
    assert (PU : (0 < 2 ^ (unit f - Zpos k))%Z) by (apply Z.pow_pos_nonneg; lia).
    assert (RP : repr f (m * 2 ^ (unit f - Zpos k))).
    { apply (repr_scaled f Hf m (unit f - Zpos k)); try lia.
      rewrite Z.abs_eq by nia. eapply Z.le_lt_trans; [|apply (pow_lt_inf f Hf (fp f + unit f))].
      - rewrite Z.pow_add_r by (destruct Hf as [? _]; lia). apply Z.mul_le_mono_nonneg; try lia. apply Z.pow_le_mono_r; lia.
      - destruct Hf as (? & ? & ?). pose proof (us_unit f Uf). unfold unit, mb in *. lia. }
    destruct RP as (a & Ha & Ea). rewrite Z.abs_eq in Ea by nia.
    assert (EL : lit f s m (- Zpos k) = with_sign f s a).
    { unfold lit. change (unit f + - Zpos k)%Z with (unit f - Zpos k)%Z. rewrite <- Ea. f_equal.
      pose proof (round_bits_exact f Hf ToNearest s 0 a ltac:(lia) Ha) as X. rewrite Z.pow_0_r, Z.mul_1_r in X. auto. }
    rewrite EL. replace (IZR (num s m) / IZR (2 ^ Zpos k)) with (IZR (num s (mag f a)) / IZR (one f)).
    - apply decode_rep; [|apply (decode_with_sign f Hf); auto]. apply (with_sign_pattern f Hf). pose proof (inf_lt f Hf). lia.
    - rewrite Ea. replace (num s (m * 2 ^ (unit f - Zpos k))) with (num s m * 2 ^ (unit f - Zpos k))%Z by (destruct s; cbn [num]; lia).
      assert (EU : IZR (one f) = IZR (2 ^ Zpos k) * IZR (2 ^ (unit f - Zpos k))).
      { unfold one. rewrite <- mult_IZR, <- Z.pow_add_r by lia. do 2 f_equal. lia. }
      rewrite mult_IZR, EU. pose proof (pow_split (Zpos k) ltac:(lia)). pose proof (pow_split (unit f - Zpos k) ltac:(lia)). field. lra.
  Qed.
  Lemma lit_mag s m k : (0 <= m)%Z -> Rabs (IZR (num s m) / IZR (2 ^ Zpos k)) <= qv (m * 2 ^ 100 / 2 ^ Zpos k + 1).
  Proof.
    intros Hm. unfold Rdiv. rewrite Rabs_mult.
    assert (P : 0 < IZR (2 ^ Zpos k)) by (apply pow_split; lia).
    rewrite (Rabs_pos_eq (/ _)) by (apply Rlt_le, Rinv_0_lt_compat; auto).
    replace (Rabs (IZR (num s m))) with (IZR m) by (destruct s; cbn [num]; rewrite ?opp_IZR, ?Rabs_Ropp, Rabs_pos_eq; auto; apply IZR_le; lia).
    pose proof (div_up (m * 2 ^ 100) (2 ^ Zpos k) ltac:(apply Z.pow_pos_nonneg; lia)) as D. unfold qv. pose proof c_pos as C.
    apply Rmult_le_reg_r with (IZR (2 ^ 100)); auto. unfold Rdiv at 1. rewrite (Rmult_assoc _ (/ IZR (2 ^ 100))), Rinv_l, Rmult_1_r by lra.
    rewrite mult_IZR in D. unfold Rdiv in D. lra.
  Qed.
  Lemma lit_apx s m k : (0 <= m <= 2 ^ fp f)%Z -> (Zpos k <= unit f)%Z -> apx f (lit f s m (- Zpos k)) (IZR (num s m) / IZR (2 ^ Zpos k)) (blit m k).
  Proof.
    intros Hm Hk. eexists. split; [apply lit_rep; auto|]. unfold blit. cbn [bm be]. split.
    - replace (_ - _) with 0 by ring. rewrite Rabs_R0, qv_0. lra.
    - apply lit_mag. lia.
  Qed.
  Lemma rep_apx x v m : rep f x v -> Rabs v <= qv m -> apx f x v {| bm := m; be := 0 |}.
  Proof.
    intros R M. exists v. split; auto. cbn [bm be]. split; auto. replace (v - v) with 0 by ring. rewrite Rabs_R0, qv_0. lra.
  Qed.
End Format.
