(* The conversions to int in sin and cos: defined for arguments below 2^31. *)
From Coq Require Import ZArith List Bool Lia Psatz.
From Verif Require Import Prelude X86Lanes Fixed FloatSpec FloatRoundSpec FloatBits FloatArith FloatRound FloatProofs FloatArithProofs
  FloatRoundProofs ScalarSpec Scalar NarrowSpec Narrow NarrowProofs HypotSpec Hypot HypotRound SinCosSpec SinCos SinCosProofs SinCosTop SinCosZero.
Import ListNotations.
Open Scope Z_scope.

Section Format.
  Variable f : fmt.
  Hypothesis Hf : fmt_ok f.
  Let U := 2 ^ unit f.

  Lemma round_bits_le md s n k b : 0 <= k -> 0 <= n -> 0 <= b < inf_bits f -> n <= mag f b * 2 ^ k -> round_bits f md s n k <= b.
  Proof.
    intros Hk Hn Hb H. assert (K : 0 < 2 ^ k) by (apply Z.pow_pos_nonneg; lia).
    pose proof (Z.div_mod n (2 ^ k) ltac:(lia)) as DM. pose proof (Z.mod_pos_bound n (2 ^ k) K) as DB.
    assert (Hq : 0 <= n / 2 ^ k) by (apply Z.div_pos; lia).
    destruct (floor_bits_spec f Hf (n / 2 ^ k) Hq) as (F0 & F1 & F2).
    unfold round_bits. set (a := Z.min (floor_bits f (n / 2 ^ k)) (finite_max_bits f)).
    assert (A0 : 0 <= a) by (unfold a; rewrite (max_val f); pose proof (inf_pos f Hf); lia).
    assert (A : mag f a * 2 ^ k <= n).
    { assert (mag f a <= mag f (floor_bits f (n / 2 ^ k))) by (apply (mag_le f Hf); unfold a; lia). nia. }
    destruct (Z.eqb_spec (mag f a * 2 ^ k) n) as [E|E].
    - destruct (Z_le_gt_dec a b); auto. pose proof (mag_mono f Hf b a ltac:(lia) ltac:(lia)). nia.
    - assert (a < b).
      { destruct (Z_lt_le_dec a b); auto. pose proof (mag_le f Hf b a ltac:(lia) ltac:(lia)). nia. }
      destruct (round_up_mag _ _ _ _); lia.
  Qed.

  Definition below_int (b : Z) : Prop := 0 <= b < inf_bits f /\ mag f b = 3 * 2 ^ 29 * U.
  Lemma int_defined md z b : below_int b -> fin f z -> z <= b -> exists v, fto_int f int_t (fround_to_int f md z) = Some v.
  Proof.
    intros [B M] F L. pose proof (one_pos f Hf) as UP. change (one f) with U in UP.
    pose proof (fround_to_int_ok f Hf md z (fin_pattern f Hf z F)) as [_ R].
    pose proof (fin_decode f Hf z F) as D. rewrite D in R.
    set (r := round_int md false (mag f z) (unit f)) in *.
    assert (MZ : mag f z <= 3 * 2 ^ 29 * U) by (rewrite <- M; apply (mag_le f Hf); destruct F; lia).
    pose proof (fin_mag_nonneg f Hf z F) as M0.
    assert (R0 : 0 <= r) by (apply round_int_nonneg; [apply (HuM f Hf)|auto]).
    assert (R1 : r <= 3 * 2 ^ 29).
    { unfold r, round_int. fold U. pose proof (Z.div_mod (mag f z) U ltac:(lia)) as DM. pose proof (Z.mod_pos_bound (mag f z) U UP) as DB.
      destruct (Z.eqb_spec (mag f z / U * U) (mag f z)); [nia|]. destruct (round_up_mag _ _ _ _); nia. }
    unfold fto_int. rewrite R. change (one f) with U. rewrite Z.div_mul by lia. cbn [num isg int_t iw].
    rewrite (proj2 (Z.leb_le _ _)), (proj2 (Z.ltb_lt _ _)) by lia. cbn [andb]. eauto.
  Qed.
  Lemma fin_of_decode x m : pattern f x -> decode f x = DFin false m -> fin f x /\ mag f x = m.
  Proof.
    intros P E. destruct (decode_fin f Hf x false m P E) as (a & A & -> & ->). unfold with_sign, fin. auto.
  Qed.
  Lemma mul_int md a c b n : below_int b -> fin f a -> mag f a < 2 ^ 31 * U -> pattern f c -> decode f c = DFin false n -> 4 * n <= 3 * U ->
    exists v, fto_int f int_t (fround_to_int f md (fmul f md a c)) = Some v.
  Proof.
    intros B F M P D L. destruct (fin_of_decode c n P D) as [FC MC]. pose proof (one_pos f Hf) as UP. change (one f) with U in UP.
    pose proof (fin_mag_nonneg f Hf c FC). pose proof (fin_mag_nonneg f Hf a F).
    rewrite (fmul_fin f Hf md a c F FC).
    assert (L2 : round_bits f md false (mag f a * mag f c) (unit f) <= b).
    { apply round_bits_le; [apply (HuM f Hf)|nia|apply B|]. destruct B as [_ B]. rewrite B. fold U. rewrite MC in *.
      assert (mag f a * n <= 2 ^ 31 * U * n) by nia. nia. }
    apply (int_defined md _ b B); auto.
    pose proof (round_bits_range f Hf md false (unit f) (mag f a * mag f c) (HuM f Hf) ltac:(nia)). destruct B as [B _]. split; lia.
  Qed.
  Lemma div_int md a c b n : below_int b -> fin f a -> mag f a < 2 ^ 31 * U -> decode f c = DFin false n -> 3 * U <= 2 * n ->
    exists v, fto_int f int_t (fround_to_int f md (fdiv f md a c)) = Some v.
  Proof.
    intros B F M D L. pose proof (one_pos f Hf) as UP. change (one f) with U in UP.
    pose proof (fin_mag_nonneg f Hf a F) as M0.
    unfold fdiv. rewrite (fin_decode f Hf a F), D. fold U. destruct (Z.eqb_spec n 0); [lia|]. cbn [xorb]. cbv zeta.
    set (p := 4 * (mag f a * U)). set (g := p / n).
    pose proof (Z.div_mod p n ltac:(lia)) as DM. pose proof (Z.mod_pos_bound p n ltac:(lia)) as DB. fold g in DM.
    assert (G0 : 0 <= g) by (apply Z.div_pos; unfold p; nia).
    assert (G : 3 * g <= 8 * mag f a).
    { assert (g * (3 * U) <= 2 * p) by nia. unfold p in *. nia. }
    set (v := if g * n =? p then 2 * g else 2 * g + 1). assert (V : 0 <= v <= 2 * g + 1) by (unfold v; destruct (_ =? _); lia).
    change (num false v) with v. rewrite (fround_pos f Hf) by lia.
    assert (L2 : round_bits f md false v 3 <= b).
    { apply round_bits_le; [lia|lia|apply B|]. destruct B as [_ B]. rewrite B. lia. }
    apply (int_defined md _ b B); auto.
    pose proof (round_bits_range f Hf md false 3 v ltac:(lia) ltac:(lia)). destruct B as [B _]. split; lia.
  Qed.
  Lemma within_abs x : within_int f (decode f x) -> fin f (fabs_lane f x) /\ mag f (fabs_lane f x) < 2 ^ 31 * U.
  Proof.
    intros W. pose proof (decode_fabs f Hf x) as D. destruct (decode f x) as [|s|s m]; cbn [within_int] in W; [tauto ..|].
    destruct (fin_of_decode _ _ (fabs_pattern f Hf x) D) as [F M]. split; auto. rewrite M. auto.
  Qed.
End Format.

Lemma below64 : below_int binary64 (fof_int binary64 ToNearest (3 * 2 ^ 29)).
Proof. refine (conj (conj _ _) _); vm_compute; reflexivity || discriminate. Qed.
Lemma below32 : below_int binary32 (fof_int binary32 ToNearest (3 * 2 ^ 29)).
Proof. refine (conj (conj _ _) _); vm_compute; reflexivity || discriminate. Qed.
(* a positive number of at most q / d *)
Definition at_most f c q d : bool := (0 <=? c) && (c <? 2 ^ fw f) && match decode f c with DFin false n => d * n <=? q * 2 ^ unit f | _ => false end.
Definition at_least f c q d : bool := match decode f c with DFin false n => q * 2 ^ unit f <=? d * n | _ => false end.
Lemma mul_int_ok f md a c b : fmt_ok f -> below_int f b -> fin f a -> mag f a < 2 ^ 31 * 2 ^ unit f -> at_most f c 3 4 = true ->
  exists v, fto_int f int_t (fround_to_int f md (fmul f md a c)) = Some v.
Proof.
  intros Hf B F M A. unfold at_most in A. apply andb_true_iff in A. destruct A as [A A'].
  destruct (decode f c) as [|s|[] n] eqn:D; try discriminate. apply (mul_int f Hf md a c b n); auto; [unfold pattern|]; lia.
Qed.

Lemma div_int_ok f md a c b : fmt_ok f -> below_int f b -> fin f a -> mag f a < 2 ^ 31 * 2 ^ unit f -> at_least f c 3 2 = true ->
  exists v, fto_int f int_t (fround_to_int f md (fdiv f md a c)) = Some v.
Proof.
  intros Hf B F M A. unfold at_least in A.
  destruct (decode f c) as [|s|[] n] eqn:D; try discriminate. apply (div_int f Hf md a c b n); auto. lia.
Qed.
Lemma pi_2_at_least : at_least binary64 (fmul binary64 ToNearest (fof_int binary64 ToNearest 2) pi_over_4_d) 3 2 = true.
Proof. vm_compute. reflexivity. Qed.
Lemma fold_y_int md x : within_int binary64 (decode binary64 x) -> exists v, fto_int binary64 int_t (fold_y md (fabs_lane binary64 x)) = Some v.
Proof.
  intros W. apply (within_abs _ b64) in W. destruct W as [F M]. unfold fold_y.
  exact (div_int_ok binary64 md _ _ _ b64 below64 F M pi_2_at_least).
Qed.
Lemma fold64_ub c ub ub' k md x : within_int binary64 (decode binary64 x) -> fold64 c ub k md x = fold64 c ub' k md x.
Proof.
  intros W. destruct (fold_y_int md x W) as [v V]. unfold fold64, to_int. rewrite V. auto.
Qed.
Lemma fold32_ub c ub ub' k md x : pattern binary32 x -> within_int binary32 (decode binary32 x) -> fold32 c ub k md x = fold32 c ub' k md x.
Proof.
  intros P W. pose proof (within_abs _ b32 _ W) as [F M]. destruct k; unfold fold32; auto; cbv zeta.
  - assert (A : at_most binary32 two_over_pi_f 3 4 = true) by (vm_compute; reflexivity).
    destruct (mul_int_ok _ md _ _ _ b32 below32 F M A) as [v V]. unfold to_int. rewrite V. auto.
  - assert (A : at_most binary64 two_over_pi_d 3 4 = true) by (vm_compute; reflexivity).
    destruct (fconv_included binary32 binary64 b32 b64 md _ included_fd (fabs_pattern _ b32 x)) as [PC DC].
    rewrite (fin_decode _ b32 _ F) in DC. destruct (fin_of_decode _ b64 _ _ PC DC) as [FC MC].
    assert (L : mag binary64 (fconv binary32 binary64 md (fabs_lane binary32 x)) < 2 ^ 31 * 2 ^ unit binary64).
    { rewrite MC. replace (2 ^ unit binary64) with (2 ^ unit binary32 * 2 ^ (unit binary64 - unit binary32))
        by (rewrite <- Z.pow_add_r by (vm_compute; discriminate); f_equal).
      assert (0 < 2 ^ (unit binary64 - unit binary32)) by (apply Z.pow_pos_nonneg; vm_compute; congruence). nia. }
    destruct (mul_int_ok _ md _ _ _ b64 below64 FC L A) as [v V]. unfold to_int. rewrite V. auto.
Qed.

(* element by element *)
Lemma map_nth_ext (h h' : Z -> Z) xs i : (i < length xs)%nat -> h (nth i xs 0) = h' (nth i xs 0) -> nth i (map h xs) 0 = nth i (map h' xs) 0.
Proof.
  intros L E. rewrite (nth_indep _ 0 (h 0)) by (rewrite map_length; auto). rewrite (nth_indep (map h' xs) 0 (h' 0)) by (rewrite map_length; auto).
  rewrite !map_nth. auto.
Qed.
Definition same_at (op op' : list Z -> list Z) (Q : Z -> Prop) : Prop :=
  forall ys i, (i < length ys)%nat -> Q (nth i ys 0) -> nth i (op ys) 0 = nth i (op' ys) 0.
Lemma registers_nth op op' Q : (forall ys, length (op ys) = length ys) -> (forall ys, length (op' ys) = length ys) -> same_at op op' Q ->
  forall g, same_at (fun ys => concat (map op (registers g ys))) (fun ys => concat (map op' (registers g ys))) Q.
Proof.
  intros L L' S. induction g as [|n g IH]; intros ys i I H; cbn [registers map concat]; auto.
  assert (FN : length (firstn n ys) = Nat.min n (length ys)) by apply firstn_length.
  destruct (Nat.lt_ge_cases i n) as [C|C].
  - rewrite !app_nth1 by (rewrite ?L, ?L', FN; lia). apply S; [rewrite FN; lia|].
    rewrite <- (firstn_skipn n ys) in H. rewrite app_nth1 in H by (rewrite FN; lia). auto.
  - rewrite !app_nth2 by (rewrite ?L, ?L', FN; lia). rewrite L, L', FN. apply IH.
    + rewrite skipn_length. lia.
    + rewrite <- (firstn_skipn n ys) in H. rewrite app_nth2 in H by (rewrite FN; lia). rewrite FN in H. auto.
Qed.
Lemma cos64_length c ub md xs : length (cos_reg64 c ub md xs) = length xs.
Proof. rewrite cos_reg64_lanes. apply map_length. Qed.
Lemma sin64_length c ub md xs : length (sin_reg64 c ub md xs) = length xs.
Proof. rewrite sin_reg64_lanes. apply map_length. Qed.
Definition within64 x := within_int binary64 (decode binary64 x).
Theorem defined_cos64 c ub ub' md : same_at (cos_reg64 c ub md) (cos_reg64 c ub' md) within64.
Proof.
  intros xs i I W. rewrite !cos_reg64_lanes. apply map_nth_ext; auto. unfold cosl64. rewrite (fold64_ub _ ub ub') by auto. auto.
Qed.
Theorem defined_sin64 c ub ub' md : same_at (sin_reg64 c ub md) (sin_reg64 c ub' md) within64.
Proof.
  intros xs i I W. rewrite !sin_reg64_lanes. apply map_nth_ext; auto. unfold sinl64. rewrite (fold64_ub _ ub ub') by auto. auto.
Qed.
Lemma widen_within md x : pattern binary32 x -> within_int binary32 (decode binary32 x) -> within64 (fconv binary32 binary64 md x).
Proof.
  intros P W. unfold within64. destruct (fconv_included binary32 binary64 b32 b64 md x included_fd P) as [_ D]. rewrite D.
  destruct (decode binary32 x) as [|s|s m]; cbn [within_int] in *; auto.
  replace (one binary64) with (one binary32 * 2 ^ (unit binary64 - unit binary32))
    by (unfold one; rewrite <- Z.pow_add_r by (vm_compute; discriminate); f_equal).
  assert (0 < 2 ^ (unit binary64 - unit binary32)) by (apply Z.pow_pos_nonneg; vm_compute; congruence). nia.
Qed.
Lemma concat_length (op : list Z -> list Z) : (forall ys, length (op ys) = length ys) -> forall g xs, list_sum g = length xs ->
  length (concat (map op (registers g xs))) = length xs.
Proof.
  intros L. induction g as [|n g IH]; cbn [registers map concat list_sum fold_right]; intros xs E; [destruct xs; [auto|discriminate]|].
  rewrite app_length, L, IH by (rewrite skipn_length; change (list_sum g) with (fold_right Nat.add 0%nat g); lia).
  rewrite firstn_length, skipn_length. lia.
Qed.
Lemma in_double_same op op' md g xs i : (forall ys, length (op ys) = length ys) -> (forall ys, length (op' ys) = length ys) ->
  same_at op op' within64 -> list_sum g = length xs -> Forall (pattern binary32) xs -> (i < length xs)%nat ->
  within_int binary32 (decode binary32 (nth i xs 0)) -> nth i (in_double op md g xs) 0 = nth i (in_double op' md g xs) 0.
Proof.
  intros L L' S G P I W. unfold in_double. set (ys := map (fconv binary32 binary64 md) xs).
  assert (LY : length ys = length xs) by apply map_length.
  assert (E : nth i (concat (map op (registers g ys))) 0 = nth i (concat (map op' (registers g ys))) 0).
  { apply (registers_nth op op' within64 L L' S g ys i); [lia|]. unfold ys.
    rewrite (nth_indep _ 0 (fconv binary32 binary64 md 0)) by (fold ys; lia). rewrite map_nth. apply widen_within; auto.
    rewrite Forall_forall in P. apply P, nth_In. auto. }
  set (h := fconv binary64 binary32 md).
  rewrite (nth_indep (map h _) 0 (h 0)) by (rewrite map_length, concat_length; lia || auto).
  rewrite (nth_indep (map h (concat (map op' _))) 0 (h 0)) by (rewrite map_length, concat_length; lia || auto).
  rewrite !map_nth, E. auto.
Qed.
Theorem defined_cos32 c ub ub' md g xs i : list_sum g = length xs -> Forall (pattern binary32) xs -> (i < length xs)%nat ->
  within_int binary32 (decode binary32 (nth i xs 0)) -> nth i (cos_reg32 c ub md g xs) 0 = nth i (cos_reg32 c ub' md g xs) 0.
Proof.
  intros G P I W. unfold cos_reg32. match goal with |- nth _ (if ?b then _ else _) _ = _ => destruct b end.
  - apply in_double_same; auto using cos64_length. apply defined_cos64.
  - rewrite !cos_lanes32. apply map_nth_ext; auto. unfold cosl32. rewrite (fold32_ub _ ub ub'); auto.
    rewrite Forall_forall in P. apply P, nth_In. auto.
Qed.
Theorem defined_sin32 c ub ub' md g xs i : list_sum g = length xs -> Forall (pattern binary32) xs -> (i < length xs)%nat ->
  within_int binary32 (decode binary32 (nth i xs 0)) -> nth i (sin_reg32 c ub md g xs) 0 = nth i (sin_reg32 c ub' md g xs) 0.
Proof.
  intros G P I W. unfold sin_reg32. match goal with |- nth _ (if ?b then _ else _) _ = _ => destruct b end.
  - apply in_double_same; auto using sin64_length. apply defined_sin64.
  - rewrite !sin_lanes32. apply map_nth_ext; auto. unfold sinl32. rewrite (fold32_ub _ ub ub'); auto.
    rewrite Forall_forall in P. apply P, nth_In. auto.
Qed.

(* ------------------------------------------------------------------ *)
(* numbers from 2^32 on: the conversion is undefined *)
Section Large.
  Variable f : fmt.
  Hypothesis Hf : fmt_ok f.
  Let U := 2 ^ unit f.
  Lemma round_bits_ge md s n k b : 0 <= k -> 0 <= n -> 0 <= b < inf_bits f -> mag f b * 2 ^ k <= n -> b <= round_bits f md s n k.
  Proof.
    intros Hk Hn Hb H. assert (K : 0 < 2 ^ k) by (apply Z.pow_pos_nonneg; lia).
    assert (Hq : 0 <= n / 2 ^ k) by (apply Z.div_pos; lia).
    destruct (floor_bits_spec f Hf (n / 2 ^ k) Hq) as (F0 & F1 & F2).
    assert (Q : mag f b <= n / 2 ^ k) by (apply Z.div_le_lower_bound; lia).
    assert (b <= floor_bits f (n / 2 ^ k)).
    { destruct (Z_le_gt_dec b (floor_bits f (n / 2 ^ k))); auto.
      pose proof (mag_le f Hf (floor_bits f (n / 2 ^ k) + 1) b ltac:(lia) ltac:(lia)). lia. }
    unfold round_bits. rewrite (max_val f). set (a := Z.min _ _). assert (b <= a) by lia.
    destruct (_ =? n); auto. destruct (round_up_mag _ _ _ _); lia.
  Qed.
  Definition above_int (b : Z) : Prop := 0 <= b < inf_bits f /\ mag f b = 2 ^ 31 * U.
  Lemma int_undefined md z b : above_int b -> fin f z -> b <= z -> fto_int f int_t (fround_to_int f md z) = None.
  Proof.
    intros [B M] F L. pose proof (one_pos f Hf) as UP. change (one f) with U in UP.
    pose proof (fround_to_int_ok f Hf md z (fin_pattern f Hf z F)) as [_ R].
    pose proof (fin_decode f Hf z F) as D. rewrite D in R.
    set (r := round_int md false (mag f z) (unit f)) in *.
    assert (MZ : 2 ^ 31 * U <= mag f z) by (rewrite <- M; apply (mag_le f Hf); destruct F; lia).
    assert (R1 : 2 ^ 31 <= r).
    { unfold r, round_int. fold U. assert (2 ^ 31 <= mag f z / U) by (apply Z.div_le_lower_bound; lia).
      destruct (_ =? mag f z); auto. destruct (round_up_mag _ _ _ _); lia. }
    unfold fto_int. rewrite R. change (one f) with U. rewrite Z.div_mul by lia. cbn [num isg int_t iw].
    destruct (Z.ltb_spec r (2 ^ (32 - 1))) as [C|C]; [change (32 - 1) with 31 in C; lia|]. rewrite andb_false_r. auto.
  Qed.
  Lemma div_undefined md a c b n : above_int b -> fin f a -> 2 ^ 32 * U <= mag f a -> decode f c = DFin false n -> 3 * U <= 2 * n -> n <= 2 * U ->
    fto_int f int_t (fround_to_int f md (fdiv f md a c)) = None.
  Proof.
    intros B F M D L3 L. pose proof (one_pos f Hf) as UP. change (one f) with U in UP.
    pose proof (fin_mag_nonneg f Hf a F) as M0.
    unfold fdiv. rewrite (fin_decode f Hf a F), D. fold U. destruct (Z.eqb_spec n 0); [lia|]. cbn [xorb]. cbv zeta.
    set (p := 4 * (mag f a * U)). set (g := p / n).
    pose proof (Z.div_mod p n ltac:(lia)) as DM. pose proof (Z.mod_pos_bound p n ltac:(lia)) as DB. fold g in DM.
    assert (G : 4 * (2 ^ 31 * U) <= g) by (apply Z.div_le_lower_bound; unfold p; nia).
    assert (G3 : 3 * g <= 8 * mag f a).
    { assert (g * (3 * U) <= 2 * p) by nia. unfold p in *. nia. }
    set (v := if g * n =? p then 2 * g else 2 * g + 1). assert (V : 2 * g <= v <= 2 * g + 1) by (unfold v; destruct (_ =? _); lia).
    change (num false v) with v. rewrite (fround_pos f Hf) by lia.
    assert (L2 : b <= round_bits f md false v 3).
    { apply round_bits_ge; [lia|lia|apply B|]. destruct B as [_ B]. rewrite B. change (2 ^ 3) with 8. lia. }
    assert (L4 : round_bits f md false v 3 <= fabs_lane f a).
    { rewrite (fabs_val f Hf). rewrite (mag_bits_small f) by (destruct F; pose proof (inf_lt f Hf); lia).
      apply round_bits_le; auto; [lia|lia|]. change (2 ^ 3) with 8. lia. }
    apply (int_undefined md _ b B); auto.
    rewrite (fabs_val f Hf), (mag_bits_small f) in L4 by (destruct F; pose proof (inf_lt f Hf); lia). destruct B as [B _], F. split; lia.
  Qed.
End Large.
Definition between f c : bool := match decode f c with DFin false n => (3 * 2 ^ unit f <=? 2 * n) && (n <=? 2 * 2 ^ unit f) | _ => false end.
Lemma div_undefined_ok f md a c b : fmt_ok f -> above_int f b -> fin f a -> 2 ^ 32 * 2 ^ unit f <= mag f a -> between f c = true ->
  fto_int f int_t (fround_to_int f md (fdiv f md a c)) = None.
Proof.
  intros Hf B F M A. unfold between in A.
  destruct (decode f c) as [|s|[] n] eqn:D; try discriminate. apply andb_true_iff in A. destruct A as [A A'].
  apply (div_undefined f Hf md a c b n); auto; lia.
Qed.
Lemma pi_2_between : between binary64 (fmul binary64 ToNearest (fof_int binary64 ToNearest 2) pi_over_4_d) = true.
Proof. vm_compute. reflexivity. Qed.
Lemma above64 : above_int binary64 (fof_int binary64 ToNearest (2 ^ 31)).
Proof. refine (conj (conj _ _) _); vm_compute; reflexivity || discriminate. Qed.
Lemma fold_y_none md x : beyond_int binary64 (decode binary64 x) -> fto_int binary64 int_t (fold_y md (fabs_lane binary64 x)) = None.
Proof.
  intros W. pose proof (decode_fabs _ b64 x) as D. destruct (decode binary64 x) as [|s|s m]; cbn [beyond_int] in W; [tauto ..|].
  destruct (fin_of_decode _ b64 _ _ (fabs_pattern _ b64 x) D) as [F M]. unfold fold_y.
  apply (div_undefined_ok binary64 md _ _ _ b64 above64 F); [rewrite M; exact W|exact pi_2_between].
Qed.
(* the other cases of the fold are left: the list is not below 2^31 *)
Lemma fold64_any c md k x q : beyond_int binary64 (decode binary64 x) -> k <> Small64 ->
  fold64 c (fun _ => q) k md x = (fst (fold64 c (fun _ => 0) k md x), Z.land q 3).
Proof.
  intros W N. pose proof (fold_y_none md x W) as E. destruct k; [congruence| | |]; unfold fold64, to_int; rewrite E; cbv beta iota zeta delta [fst]; reflexivity.
Qed.
Lemma not_small md xs x : In x xs -> beyond_int binary64 (decode binary64 x) -> fold_test64 md xs <> Small64.
Proof.
  intros I W E. pose proof (fold_test64_ok md xs x I) as O. rewrite E in O. cbv beta iota delta [lane_ok64] in O.
  pose proof (decode_fabs _ b64 x) as D. destruct (decode binary64 x) as [|s|s m]; cbn [beyond_int] in W; [tauto ..|].
  unfold flt, cmp, compare_lanes in O. rewrite D in O.
  assert (C : match decode binary64 pi_over_4_d with DFin false n => n <? 2 ^ 32 * one binary64 | _ => false end = true) by (vm_compute; reflexivity).
  destruct (decode binary64 pi_over_4_d) as [|t|[] n]; try discriminate C. apply Z.ltb_lt in C.
  cbn [ieee_compare num] in O. destruct (Z.compare_spec m n); try discriminate O; lia.
Qed.
(* undefined behaviour that gives 0 and 2: opposite results *)
Lemma cosl64_opposite c md k x : beyond_int binary64 (decode binary64 x) -> k <> Small64 ->
  decode binary64 (cosl64 c (fun _ => 2) md k x) = opposite (decode binary64 (cosl64 c (fun _ => 0) md k x)).
Proof.
  intros W N. unfold cosl64. rewrite (fold64_any c md k x 2 W N), (fold64_any c md k x 0 W N). set (r := fst _).
  unfold cos_lane. cbn [fst snd]. change (Z.land (Z.land 2 3) 1 =? 0) with true. change (Z.land (Z.land 0 3) 1 =? 0) with true. cbv iota.
  rewrite !(cos_sign_val _ b64) by (vm_compute; split; congruence).
  rewrite !(decode_xor _ b64) by apply cos_series64_pattern.
  destruct (decode binary64 (cos_series64 c md r)) as [|s|s m]; cbn [opposite]; auto; destruct s; auto.
Qed.
Lemma sinl64_opposite c md k x : pattern binary64 x -> beyond_int binary64 (decode binary64 x) -> k <> Small64 ->
  decode binary64 (sinl64 c (fun _ => 2) md k x) = opposite (decode binary64 (sinl64 c (fun _ => 0) md k x)).
Proof.
  intros P W N. unfold sinl64. rewrite (fold64_any c md k x 2 W N), (fold64_any c md k x 0 W N). set (r := fst _).
  unfold sin_lane. cbn [fst snd]. change (Z.land (Z.land 2 3) 1 =? 0) with true. change (Z.land (Z.land 0 3) 1 =? 0) with true. cbv iota.
  rewrite !(sin_sign_val _ b64) by auto.
  rewrite !(decode_xor _ b64) by apply sin_series64_pattern.
  destruct (decode binary64 (sin_series64 c md r)) as [|s|s m]; cbn [opposite]; auto; destruct (sign_of binary64 x), s; auto.
Qed.
Theorem large_cos64 c md xs i : (i < length xs)%nat -> beyond_int binary64 (decode binary64 (nth i xs 0)) ->
  decode binary64 (nth i (cos_reg64 c (fun _ => 2) md xs) 0) = opposite (decode binary64 (nth i (cos_reg64 c (fun _ => 0) md xs) 0)).
Proof.
  intros I W. pose proof (not_small md xs _ (nth_In xs 0 I) W) as N. rewrite !cos_reg64_lanes. set (k := fold_test64 md xs) in *.
  rewrite (nth_indep _ 0 (cosl64 c (fun _ => 2) md k 0)) by (rewrite map_length; auto).
  rewrite (nth_indep (map (cosl64 c (fun _ => 0) md k) xs) 0 (cosl64 c (fun _ => 0) md k 0)) by (rewrite map_length; auto).
  rewrite !map_nth. apply cosl64_opposite; auto.
Qed.
Theorem large_sin64 c md xs i : Forall (pattern binary64) xs -> (i < length xs)%nat -> beyond_int binary64 (decode binary64 (nth i xs 0)) ->
  decode binary64 (nth i (sin_reg64 c (fun _ => 2) md xs) 0) = opposite (decode binary64 (nth i (sin_reg64 c (fun _ => 0) md xs) 0)).
Proof.
  intros P I W. pose proof (not_small md xs _ (nth_In xs 0 I) W) as N. rewrite !sin_reg64_lanes. set (k := fold_test64 md xs) in *.
  rewrite (nth_indep _ 0 (sinl64 c (fun _ => 2) md k 0)) by (rewrite map_length; auto).
  rewrite (nth_indep (map (sinl64 c (fun _ => 0) md k) xs) 0 (sinl64 c (fun _ => 0) md k 0)) by (rewrite map_length; auto).
  rewrite !map_nth. apply sinl64_opposite; auto. rewrite Forall_forall in P. apply P, nth_In; auto.
Qed.

(* ------------------------------------------------------------------ *)
(* examples *)
Definition unfused : fusing := {| fuse := fun _ => false; fuse2 := Separate |}.
Definition big : Z := lit binary64 false 1 40.
Lemma big_decode : beyond_int binary64 (decode binary64 big) /\ pattern binary64 big /\ exists s m, decode binary64 big = DFin s m.
Proof.
  split; [vm_compute; congruence|]. split; [split; vm_compute; congruence|].
  assert (G : good binary64 big = true) by (vm_compute; reflexivity). apply good_ok in G. destruct G as (_ & s & m & E & _). eauto.
Qed.
Lemma big_cos : good binary64 (cosl64 unfused (fun _ => 0) ToNearest (fold_test64 ToNearest [big; big]) big) = true.
Proof. vm_compute. reflexivity. Qed.
Lemma large_refuted_at x : beyond_int binary64 (decode binary64 x) -> pattern binary64 x -> (exists s m, decode binary64 x = DFin s m) ->
  good binary64 (cosl64 unfused (fun _ => 0) ToNearest (fold_test64 ToNearest [x; x]) x) = true ->
  ~ (forall c ub ub' md xs, Forall (pattern binary64) xs -> Forall (fun x => exists s m, decode binary64 x = DFin s m) xs ->
     cos_reg64 c ub md xs = cos_reg64 c ub' md xs).
Proof.
  intros W P F G H.
  specialize (H unfused (fun _ => 2) (fun _ => 0) ToNearest [x; x] ltac:(repeat constructor; apply P) ltac:(repeat constructor; exact F)).
  pose proof (large_cos64 unfused ToNearest [x; x] 0 ltac:(cbn; lia) W) as L. rewrite H in L. clear H.
  rewrite cos_reg64_lanes in L. cbn [map nth] in L. apply good_ok in G. destruct G as (_ & s & m & E & _).
  rewrite E in L. cbn [opposite] in L. injection L as L. destruct s; discriminate L.
Qed.
Theorem large_refuted :
  ~ (forall c ub ub' md xs, Forall (pattern binary64) xs -> Forall (fun x => exists s m, decode binary64 x = DFin s m) xs ->
     cos_reg64 c ub md xs = cos_reg64 c ub' md xs).
Proof. destruct big_decode as (W & P & F). exact (large_refuted_at big W P F big_cos). Qed.
Lemma sin_series_down y : is binary64 y true (0x15555555555555 * 2 ^ (unit binary64 - 55)) -> forall b, decode binary64 (mul_add b binary64 Downward y 0 0) = DFin true 0.
Proof.
  intros [E _] b. pose proof zero0_64 as [s Z].
  assert (D : decode binary64 0 = DFin false 0) by (vm_compute; reflexivity). unfold mul_add. destruct b.
  - unfold ffma. rewrite E, D. cbn [xorb Bool.eqb]. cbv zeta iota. rewrite num0, Z.mul_0_r. apply (zero_bits_decode _ b64).
  - assert (M : decode binary64 (fmul binary64 Downward y 0) = DFin true 0).
    { unfold fmul. rewrite E, D, num0, Z.mul_0_r. apply (zero_bits_decode _ b64). }
    unfold fadd. rewrite M, D. apply (zero_bits_decode _ b64).
Qed.
Theorem zero_downward c ub :
  map (decode binary64) (sin_reg64 c ub Downward [0; 0]) = [DFin true 0; DFin true 0] /\
  map (decode binary64) [0; 0] = [DFin false 0; DFin false 0].
Proof.
  split; [|vm_compute; reflexivity]. rewrite sin_reg64_lanes.
  replace (fold_test64 Downward [0; 0]) with Small64 by (vm_compute; reflexivity). cbn [map].
  assert (E : decode binary64 (sinl64 c ub Downward Small64 0) = DFin true 0); [|rewrite E; auto].
  unfold sinl64, sin_lane, fold64. change (fabs_lane binary64 0) with 0. cbn [fst snd]. change (Z.land 0 1 =? 0) with true. cbv iota.
  rewrite (sin_sign_val _ b64) by apply pat0_64. change (sign_of binary64 0) with false. change (1 - 0 <? 0) with false. cbn [xorb].
  change (with_sign binary64 false 0) with 0. rewrite Z.lxor_0_l.
  unfold sin_series64. cbv zeta. replace (fmul binary64 Downward 0 0) with 0 by (vm_compute; reflexivity).
  apply sin_series_down.
  match goal with |- is _ (mul_sub _ _ _ ?y _ _) _ _ => assert (Y : finite binary64 y) by (fin b64 zero0_64) end.
  change true with (negb false). apply (mulsub_is _ b64); [exact Y|exact zero0_64| |].
  - split; vm_compute; congruence.
  - split; vm_compute; reflexivity.
Qed.
(* near pi / 2, with and without an element from 6 * pi / 4 on *)
Lemma near_pi_2 :
  let x := 1070141387 in
  let h := lit binary32 false 100 0 in
  let v k := cosl32 unfused (fun _ => 0) ToNearest k x in
  fold_test32 [x; 0] = Medium32 /\ fold_test32 [x; h] = Wide32 /\
  existsb (fun x => fge binary32 (fabs_lane binary32 x) (fof_int binary32 ToNearest 393382)) [x; 0] = false /\
  existsb (fun x => fge binary32 (fabs_lane binary32 x) (fof_int binary32 ToNearest 393382)) [x; h] = false /\
  v Medium32 = 905585174 /\ v Wide32 = 905585175.
Proof. cbv zeta. refine (conj _ (conj _ (conj _ (conj _ (conj _ _))))); vm_compute; reflexivity. Qed.
Lemma near_decode : decode binary32 905585174 <> decode binary32 905585175.
Proof. vm_compute. discriminate. Qed.
Lemma nth0_map (h : Z -> Z) x l : nth 0 (map h (x :: l)) 0 = h x. Proof. reflexivity. Qed.
Lemma independent_refuted_at x h a b : pattern binary32 x -> pattern binary32 h -> pattern binary32 0 -> within_int binary32 (decode binary32 x) ->
  fold_test32 [x; 0] = Medium32 -> fold_test32 [x; h] = Wide32 ->
  existsb (fun x => fge binary32 (fabs_lane binary32 x) (fof_int binary32 ToNearest 393382)) [x; 0] = false ->
  existsb (fun x => fge binary32 (fabs_lane binary32 x) (fof_int binary32 ToNearest 393382)) [x; h] = false ->
  cosl32 unfused (fun _ => 0) ToNearest Medium32 x = a -> cosl32 unfused (fun _ => 0) ToNearest Wide32 x = b ->
  decode binary32 a <> decode binary32 b ->
  ~ (forall c ub md g xs ys i, list_sum g = length xs -> length ys = length xs -> Forall (pattern binary32) xs -> Forall (pattern binary32) ys ->
     (i < length xs)%nat -> nth i xs 0 = nth i ys 0 -> within_int binary32 (decode binary32 (nth i xs 0)) ->
     decode binary32 (nth i (cos_reg32 c ub md g xs) 0) = decode binary32 (nth i (cos_reg32 c ub md g ys) 0)).
Proof.
  intros PX PH P0 W T1 T2 E1 E2 V1 V2 N H.
  specialize (H unfused (fun _ => 0) ToNearest [2%nat] [x; 0] [x; h] 0%nat eq_refl eq_refl
    (Forall_cons x PX (Forall_cons 0 P0 (Forall_nil _))) (Forall_cons x PX (Forall_cons h PH (Forall_nil _)))
    ltac:(cbn; lia) eq_refl W).
  unfold cos_reg32 in H. rewrite E1, E2, !cos_lanes32, T1, T2, !nth0_map in H. rewrite V1, V2 in H. exact (N H).
Qed.
Theorem independent_refuted :
  ~ (forall c ub md g xs ys i, list_sum g = length xs -> length ys = length xs -> Forall (pattern binary32) xs -> Forall (pattern binary32) ys ->
     (i < length xs)%nat -> nth i xs 0 = nth i ys 0 -> within_int binary32 (decode binary32 (nth i xs 0)) ->
     decode binary32 (nth i (cos_reg32 c ub md g xs) 0) = decode binary32 (nth i (cos_reg32 c ub md g ys) 0)).
Proof.
  destruct near_pi_2 as (T1 & T2 & E1 & E2 & V1 & V2).
  refine (independent_refuted_at _ _ _ _ _ _ _ _ T1 T2 E1 E2 V1 V2 near_decode).
  - split; vm_compute; congruence.
  - split; vm_compute; congruence.
  - split; vm_compute; congruence.
  - vm_compute. reflexivity.
Qed.
