(* Proofs for the operators of floating-point simd. *)
From Coq Require Import ZArith List Bool Lia Psatz Reals Lra.
From Verif Require Import Prelude X86Lanes FloatSpec FloatRoundSpec FloatBits FloatArith FloatProofs FloatArithProofs FloatRoundProofs Hypot SinCos LdexpSpec LdexpProofs LdexpTop ArithOps ArithSpec.
Import ListNotations.
Local Open Scope Z_scope.

(* what rounding observes of v / u: how it compares with halves of integers *)
Definition same_cut (v u v' u' : Z) : Prop :=
  forall t, (2 * v <= t * u <-> 2 * v' <= t * u') /\ (t * u <= 2 * v <-> t * u' <= 2 * v').
Lemma near_cut u v n n' : 0 < u -> n < n' ->
  (Z.abs (n * u - v) <= Z.abs (n' * u - v) <-> 2 * v <= (n + n') * u) /\ (Z.abs (n' * u - v) <= Z.abs (n * u - v) <-> (n + n') * u <= 2 * v).
Proof. intros Hu L. assert (n * u < n' * u) by (apply Z.mul_lt_mono_pos_r; auto). rewrite Z.mul_add_distr_r. set (a := n * u) in *. set (b := n' * u) in *. lia. Qed.
Lemma near_same u v u' v' n n' : 0 < u -> 0 < u' -> same_cut v u v' u' ->
  (Z.abs (n * u - v) <= Z.abs (n' * u - v) <-> Z.abs (n * u' - v') <= Z.abs (n' * u' - v')).
Proof.
  intros Hu Hu' C. destruct (Z.lt_trichotomy n n') as [L|[->|L]]; [| split; intros; apply Z.le_refl |].
  - destruct (near_cut u v n n' Hu L) as [-> _]. destruct (near_cut u' v' n n' Hu' L) as [-> _]. apply C.
  - destruct (near_cut u v n' n Hu L) as [_ ->]. destruct (near_cut u' v' n' n Hu' L) as [_ ->]. apply C.
Qed.
Lemma cut_le v u v' u' n : same_cut v u v' u' -> (n * u <= v <-> n * u' <= v') /\ (v <= n * u <-> v' <= n * u').
Proof.
  intros C. destruct (C (2 * n)) as [A B]. rewrite <- !Z.mul_assoc in A, B. lia.
Qed.
Lemma rounded_cut f md s v u v' u' y : 0 < u -> 0 < u' -> same_cut v u v' u' ->
  correctly_rounded f md s v u y -> correctly_rounded f md s v' u' y.
Proof.
  intros Hu Hu' C. destruct y as [|s'|s' n]; cbn [correctly_rounded]; [auto| |].
  - intros [-> D]. split; auto. destruct (direction_of md s); auto.
    + destruct (cut_le v u v' u' (largest f) C). lia.
    + destruct (C (largest f + top f)). tauto.
  - intros [-> (x & N & D)]. split; auto. exists x. split; auto. destruct (direction_of md s).
    + destruct D as [D1 D2]. split; [apply (cut_le v u v' u' n C); auto|].
      intros n' N' L. apply D2; auto. apply (cut_le v u v' u' n' C); auto.
    + destruct D as [D1 D2]. split; [apply (cut_le v u v' u' n C); auto|].
      intros n' N' L. apply D2; auto. apply (cut_le v u v' u' n' C); auto.
    + destruct D as [D1 D2]. split; [destruct (C (largest f + top f)); lia|].
      intros n' N'. destruct (D2 n' N') as [D3 D4]. split; [apply (near_same u v u' v'); auto|].
      intros NE E. apply D4; auto. apply Z.le_antisymm; auto. apply (near_same u v u' v'); auto. lia.
Qed.

Lemma mag0 f : fmt_ok f -> mag f 0 = 0.
Proof. intros Hf. apply Z.eqb_eq. rewrite (mag_zero f Hf) by lia. reflexivity. Qed.

(* the quotient with a sticky bit *)
Lemma quotient_cut m o n : 0 <= m -> 0 <= o -> 0 < n ->
  let p := 4 * (m * o) in let g := p / n in
  same_cut (if g * n =? p then 2 * g else 2 * g + 1) 8 (m * o) n.
Proof.
  intros Hm Ho Hn p g t. pose proof (Z.mul_div_le p n Hn) as A. pose proof (Z.mul_succ_div_gt p n Hn) as B. fold g in A, B.
  assert (EP : 2 * (2 * (m * o)) = p) by (unfold p; ring). set (q := m * o) in *. clearbody p. clearbody g. clear Hm Ho.
  assert (T : (g <= 2 * t -> g * n <= 2 * (t * n)) /\ (2 * t <= g -> 2 * (t * n) <= g * n) /\ (g + 1 <= 2 * t -> g * n + n <= 2 * (t * n)) ).
  { repeat split; intros; nia. }
  destruct T as (T1 & T2 & T3).
  assert (T4 : g * n < 2 * (t * n) -> g < 2 * t) by nia.
  assert (T6 : g * n <= 2 * (t * n) -> g <= 2 * t) by nia. assert (T7 : 2 * (t * n) <= g * n -> 2 * t <= g) by nia.
  assert (T5 : 2 * (t * n) < g * n + n -> 2 * t < g + 1) by nia.
  rewrite Z.mul_succ_r in B. rewrite (Z.mul_comm n g) in A, B.
  set (tn := t * n) in *. set (gn := g * n) in *. clearbody tn gn.
  destruct (Z.eqb_spec gn p); split; split; intros; lia.
Qed.

Section Format.
  Variable f : fmt.
  Hypothesis Hf : fmt_ok f.

  Lemma num_abs v : num (v <? 0) (Z.abs v) = v.
  Proof. destruct (Z.ltb_spec v 0); cbn [num]; lia. Qed.
  Lemma fin_nonneg x s m : pattern f x -> decode f x = DFin s m -> 0 <= m.
  Proof. intros P D. destruct (decode_fin f Hf x s m P D) as (a & Ha & -> & _). apply (mag_nonneg f Hf). lia. Qed.
  Lemma unit_ge : 0 <= unit f.
  Proof. pose proof (unit_pos f Hf). pose proof (mb_pos f Hf). lia. Qed.
  Lemma fround_rounds md z v k : 0 <= k -> v <> 0 -> rounds_to f md v (2 ^ k) (decode f (fround f md z v k)).
  Proof.
    intros Hk Hv. unfold rounds_to. pose proof (fround_correct f Hf md (v <? 0) (Z.abs v) k Hk ltac:(lia)) as C. rewrite num_abs in C.
    unfold fround in *. destruct (Z.eqb_spec v 0); [contradiction|exact C].
  Qed.
  Lemma fround_zero md z k : decode f (fround f md z 0 k) = DFin z 0.
  Proof. unfold fround. cbn [Z.eqb]. pose proof (inf_pos f Hf). rewrite (decode_with_sign f Hf) by lia. rewrite (mag0 f Hf). reflexivity. Qed.

  Lemma fadd_ok md x y : sum_result f md (decode f x) (decode f y) (decode f (fadd f md x y)).
  Proof.
    unfold fadd, sum_result. destruct (decode f x) as [|a|a m], (decode f y) as [|b|b n]; try apply (decode_nan f Hf); try apply (decode_with_inf f Hf).
    - destruct (Bool.eqb a b); [apply (decode_with_inf f Hf)|apply (decode_nan f Hf)].
    - set (v := num a m + num b n). split; intros E.
      + rewrite E. rewrite fround_zero. destruct (Bool.eqb a b); reflexivity.
      + change 1 with (2 ^ 0). apply fround_rounds; [lia|auto].
  Qed.
  Lemma fsub_ok md x y : pattern f y -> sum_result f md (decode f x) (neg (decode f y)) (decode f (fsub f md x y)).
  Proof. intros Hy. unfold fsub. pose proof (fadd_ok md x (fneg f y)) as H. rewrite (decode_neg f Hf y Hy) in H. exact H. Qed.
  Lemma fmul_ok md x y : pattern f x -> pattern f y -> product_result f md (decode f x) (decode f y) (decode f (fmul f md x y)).
  Proof.
    intros Px Py. unfold product_result. destruct (decode f x) as [|a|a m] eqn:Dx, (decode f y) as [|b|b n] eqn:Dy;
      try (apply product_correct; auto; fail); unfold fmul; rewrite Dx, ?Dy; try apply (decode_nan f Hf); try apply (decode_with_inf f Hf).
    - destruct (n =? 0); [apply (decode_nan f Hf)|apply (decode_with_inf f Hf)].
    - destruct (m =? 0); [apply (decode_nan f Hf)|]. rewrite (decode_with_inf f Hf). rewrite xorb_comm. reflexivity.
  Qed.
  Lemma fdiv_ok md x y : pattern f x -> pattern f y -> quotient_result f md (decode f x) (decode f y) (decode f (fdiv f md x y)).
  Proof.
    intros Px Py. unfold quotient_result, fdiv. destruct (decode f x) as [|a|a m] eqn:Dx, (decode f y) as [|b|b n] eqn:Dy;
      try apply (decode_nan f Hf); try apply (decode_with_inf f Hf).
    - pose proof (inf_pos f Hf). rewrite (decode_with_sign f Hf) by lia. rewrite (mag0 f Hf). reflexivity.
    - pose proof (fin_nonneg x a m Px Dx) as Hm. pose proof (fin_nonneg y b n Py Dy) as Hn.
      destruct (Z.eqb_spec n 0) as [->|N]. { destruct (m =? 0); [apply (decode_nan f Hf)|apply (decode_with_inf f Hf)]. }
      assert (HO : 0 <= one f) by (apply Z.pow_nonneg; lia).
      pose proof (quotient_cut m (one f) n Hm HO ltac:(lia)) as C. cbv zeta in C. change (one f) with (2 ^ unit f) in *.
      set (p := 4 * (m * 2 ^ unit f)) in *. set (v := if p / n * n =? p then 2 * (p / n) else 2 * (p / n) + 1) in *.
      assert (Hg : 0 <= p / n) by (apply Z.div_pos; [unfold p; nia|lia]).
      assert (Hv : 0 <= v) by (unfold v; destruct (_ =? _); lia).
      apply (rounded_cut f md (xorb a b) v 8 (m * 2 ^ unit f) n); [lia|lia|exact C|].
      change 8 with (2 ^ 3). apply (fround_correct f Hf); [lia|exact Hv].
  Qed.
  Lemma ffma_ok md x y z a m b n c k : decode f x = DFin a m -> decode f y = DFin b n -> decode f z = DFin c k ->
    fused_result f md a m b n c k (decode f (ffma f md x y z)).
  Proof.
    intros Dx Dy Dz. unfold ffma. rewrite Dx, Dy, Dz. unfold fused_result. cbv zeta. change (one f) with (2 ^ unit f). split; intros E.
    - rewrite E, fround_zero. reflexivity.
    - apply fround_rounds; [apply unit_ge|exact E].
  Qed.
  Lemma fof_int_ok md v : (v = 0 -> decode f (fof_int f md v) = DFin false 0) /\ (v <> 0 -> rounds_to f md (v * one f) 1 (decode f (fof_int f md v))).
  Proof.
    unfold fof_int. change (one f) with (2 ^ unit f). split.
    - intros ->. rewrite Z.mul_0_l. apply fround_zero.
    - intros N. change 1 with (2 ^ 0). apply fround_rounds; [lia|]. pose proof (Z.pow_pos_nonneg 2 (unit f) ltac:(lia) unit_ge). nia.
  Qed.
End Format.

(* square roots *)
Local Open Scope R_scope.
Definition real_cut (v u : Z) (r : R) : Prop :=
  forall t, ((2 * v <= t * u)%Z <-> 2 * r <= IZR t) /\ ((t * u <= 2 * v)%Z <-> IZR t <= 2 * r).
Lemma near_cut_real r n n' : (n < n')%Z ->
  (Rabs (IZR n - r) <= Rabs (IZR n' - r) <-> 2 * r <= IZR (n + n')) /\ (Rabs (IZR n' - r) <= Rabs (IZR n - r) <-> IZR (n + n') <= 2 * r).
Proof.
  intros L. apply IZR_lt in L. rewrite plus_IZR. set (a := IZR n) in *. set (b := IZR n') in *.
  unfold Rabs. destruct (Rcase_abs (a - r)), (Rcase_abs (b - r)); split; split; intros; lra.
Qed.
Lemma near_real v u r n n' : (0 < u)%Z -> real_cut v u r ->
  ((Z.abs (n * u - v) <= Z.abs (n' * u - v))%Z <-> Rabs (IZR n - r) <= Rabs (IZR n' - r)).
Proof.
  intros Hu C. destruct (Z.lt_trichotomy n n') as [L|[->|L]]; [| split; intros; [apply Rle_refl|apply Z.le_refl] |].
  - destruct (near_cut u v n n' Hu L) as [-> _]. destruct (near_cut_real r n n' L) as [-> _]. apply C.
  - destruct (near_cut u v n' n Hu L) as [_ ->]. destruct (near_cut_real r n' n L) as [_ ->]. apply C.
Qed.
Lemma real_le v u r n : real_cut v u r -> ((n * u <= v)%Z <-> IZR n <= r) /\ ((v <= n * u)%Z <-> r <= IZR n).
Proof.
  intros C. destruct (C (2 * n)%Z) as [A B]. rewrite <- Z.mul_assoc, mult_IZR in A, B. split.
  - rewrite (Z.mul_le_mono_pos_l (n * u) v 2) by lia. rewrite B. split; intros; lra.
  - rewrite (Z.mul_le_mono_pos_l v (n * u) 2) by lia. rewrite A. split; intros; lra.
Qed.
Lemma rounded_real_cut f md s v u r y : (0 < u)%Z -> real_cut v u r -> correctly_rounded f md s v u y -> rounded_real f md s r y.
Proof.
  intros Hu C. destruct y as [|s'|s' n]; cbn [correctly_rounded rounded_real]; [auto| |].
  - intros [-> D]. split; auto. destruct (direction_of md s); auto.
    + apply Rnot_le_lt. intros X. apply (proj2 (real_le v u r (largest f) C)) in X. lia.
    + apply (C (largest f + top f)%Z). exact D.
  - intros [-> (x & N & D)]. split; auto. exists x. split; auto. destruct (direction_of md s).
    + destruct D as [D1 D2]. split; [apply (real_le v u r n C); auto|].
      intros n' N' L. apply D2; auto. apply (real_le v u r n' C); auto.
    + destruct D as [D1 D2]. split; [apply (real_le v u r n C); auto|].
      intros n' N' L. apply D2; auto. apply (real_le v u r n' C); auto.
    + destruct D as [D1 D2]. split.
      * apply Rnot_le_lt. intros X. apply (proj2 (C (largest f + top f)%Z)) in X. lia.
      * intros n' N'. destruct (D2 n' N') as [D3 D4]. split; [apply (near_real v u r); auto|].
        intros NE E. apply D4; auto. apply Z.le_antisymm; auto. apply (near_real v u r); auto. rewrite E. apply Rle_refl.
Qed.
Lemma sqrt_cut q : (0 <= q)%Z ->
  let p := (4 * q)%Z in let g := Z.sqrt p in
  if (g * g =? p)%Z then real_cut g 2 (sqrt (IZR q)) else real_cut (2 * g + 1) 4 (sqrt (IZR q)).
Proof.
  intros Hq p g. set (r := sqrt (IZR q)). assert (R0 : 0 <= r) by apply sqrt_pos.
  assert (RR : (2 * r) * (2 * r) = IZR p).
  { unfold p. rewrite mult_IZR. replace ((2 * r) * (2 * r)) with (4 * (r * r)) by ring. unfold r. rewrite sqrt_sqrt; [reflexivity|apply IZR_le; lia]. }
  pose proof (Z.sqrt_spec p ltac:(unfold p; lia)) as [S1 S2]. fold g in S1, S2. assert (G0 : (0 <= g)%Z) by apply Z.sqrt_nonneg.
  assert (EW : exists w, w = 2 * r) by (eexists; reflexivity). destruct EW as [w EW]. rewrite <- EW in RR. assert (W0 : 0 <= w) by (rewrite EW; lra). clearbody g.
  assert (L1 : IZR g <= w).
  { apply IZR_le in S1. rewrite mult_IZR, <- RR in S1. apply IZR_le in G0. apply Rsqr_incr_0_var; unfold Rsqr; auto. }
  assert (L2 : w < IZR (g + 1)).
  { apply IZR_lt in S2. rewrite mult_IZR, <- RR in S2. rewrite <- Z.add_1_r in S2. assert (0 <= IZR (g + 1)) by (apply IZR_le; lia). apply Rsqr_incrst_0; unfold Rsqr; auto. }
  destruct (Z.eqb_spec (g * g) p) as [E|E].
  - assert (W : w = IZR g).
    { apply Rle_antisym; auto. apply (f_equal IZR) in E. rewrite mult_IZR, <- RR in E. apply IZR_le in G0.
      apply Rsqr_incr_0_var; unfold Rsqr; auto. rewrite E. apply Rle_refl. }
    intros t. rewrite <- EW, W. split; split; intros X; try (apply IZR_le; lia); apply le_IZR in X; lia.
  - assert (W : IZR g < w).
    { destruct L1 as [|X]; auto. exfalso. apply E. rewrite <- X, <- mult_IZR in RR. apply eq_IZR in RR. exact RR. }
    intros t. rewrite <- EW. split; split; intros X.
    + apply Rle_trans with (IZR (g + 1)); [apply Rlt_le; exact L2|apply IZR_le; lia].
    + assert (g < t)%Z by (apply lt_IZR; eapply Rlt_le_trans; [exact W|exact X]). lia.
    + apply Rle_trans with (IZR g); [apply IZR_le; lia|apply Rlt_le; exact W].
    + assert (t < g + 1)%Z by (apply lt_IZR; eapply Rle_lt_trans; [exact X|exact L2]). lia.
Qed.
Lemma fsqrt_ok f md x : fmt_ok f -> pattern f x -> sqrt_result f md (decode f x) (decode f (fsqrt f md x)).
Proof.
  intros Hf Px. unfold sqrt_result, fsqrt. destruct (decode f x) as [|s|s m] eqn:D.
  - apply (decode_nan f Hf).
  - destruct s; [apply (decode_nan f Hf)|apply (decode_with_inf f Hf false)].
  - pose proof (fin_nonneg f Hf x s m Px D) as Hm. destruct (Z.eqb_spec m 0) as [->|N].
    { pose proof (inf_pos f Hf). rewrite (decode_with_sign f Hf) by lia. rewrite (mag0 f Hf). reflexivity. }
    destruct s; [apply (decode_nan f Hf)|]. assert (O : (0 <= 2 ^ unit f)%Z) by (apply Z.pow_nonneg; lia).
    rewrite <- mult_IZR. change (one f) with (2 ^ unit f)%Z.
    pose proof (sqrt_cut (m * 2 ^ unit f) ltac:(nia)) as C. cbv zeta in C.
    set (q := (m * 2 ^ unit f)%Z) in *. assert (G0 : (0 <= Z.sqrt (4 * q))%Z) by apply Z.sqrt_nonneg. destruct (_ =? _)%Z.
    + apply (rounded_real_cut f md false (Z.sqrt (4 * q)) 2); [lia|exact C|]. apply (round_correct f Hf md false _ 1); [lia|exact G0].
    + apply (rounded_real_cut f md false (2 * Z.sqrt (4 * q) + 1) 4); [lia|exact C|]. apply (round_correct f Hf md false _ 2); lia.
Qed.
