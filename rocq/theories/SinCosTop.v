(* sin and cos of whole vectors: special values, signs, zero. *)
From Coq Require Import ZArith List Bool Lia.
From Verif Require Import Prelude X86Lanes Fixed FloatSpec FloatRoundSpec FloatBits FloatArith FloatRound FloatProofs FloatArithProofs
  FloatRoundProofs ScalarSpec Scalar NarrowSpec Narrow NarrowProofs Hypot SinCosSpec SinCos SinCosProofs.
Import ListNotations.
Open Scope Z_scope.

(* ------------------------------------------------------------------ *)
(* lists *)
Lemma Forall2_map_in {A B} (R : A -> B -> Prop) (h : A -> B) l : (forall x, In x l -> R x (h x)) -> Forall2 R l (map h l).
Proof. induction l; cbn; intros H; constructor; auto. Qed.
Lemma registers_concat g : forall xs, list_sum g = length xs -> concat (registers g xs) = xs.
Proof.
  induction g as [|n g IH]; cbn [registers concat list_sum fold_right]; intros xs E.
  - destruct xs; [auto|discriminate].
  - rewrite IH; [apply firstn_skipn|]. rewrite skipn_length. change (list_sum g) with (fold_right Nat.add 0%nat g). lia.
Qed.
Lemma registers_map {h : Z -> Z} g : forall xs, registers g (map h xs) = map (map h) (registers g xs).
Proof. induction g as [|n g IH]; intros xs; cbn [registers map]; auto. rewrite firstn_map, skipn_map, IH. auto. Qed.
Lemma Forall2_concat {A B} (R : A -> B -> Prop) op L : (forall ys, In ys L -> Forall2 R ys (op ys)) ->
  Forall2 R (concat L) (concat (map op L)).
Proof.
  induction L as [|y L IH]; cbn [concat map]; intros H; [constructor|].
  apply Forall2_app; [apply H; left; auto|apply IH; intros; apply H; right; auto].
Qed.
Lemma Forall2_trans3 {A B C D} (P : A -> D -> Prop) (R : A -> B -> Prop) (S : B -> C -> Prop) (T : C -> D -> Prop) a b c d :
  (forall x y z w, R x y -> S y z -> T z w -> P x w) -> Forall2 R a b -> Forall2 S b c -> Forall2 T c d -> Forall2 P a d.
Proof.
  intros H F. revert c d. induction F as [|x y a b Rxy F IH]; intros c d G K.
  - inversion G; subst. inversion K; subst. constructor.
  - inversion G; subst. inversion K; subst. constructor; eauto.
Qed.
Lemma registers_in g : forall xs ys, In ys (registers g xs) -> forall y, In y ys -> In y xs.
Proof.
  induction g as [|n g IH]; cbn [registers]; intros xs ys H y I; [destruct H|].
  destruct H as [<-|H].
  - rewrite <- (firstn_skipn n xs). apply in_or_app. auto.
  - rewrite <- (firstn_skipn n xs). apply in_or_app. right. eapply IH; eauto.
Qed.
(* what holds of every register holds of a vector of float computed in double *)
Lemma in_double_lanes (S P : Z -> Z -> Prop) op md g xs : list_sum g = length xs ->
  (forall ys, (forall y, In y ys -> exists x, In x xs /\ y = fconv binary32 binary64 md x) -> Forall2 S ys (op ys)) ->
  (forall x r, In x xs -> S (fconv binary32 binary64 md x) r -> P x (fconv binary64 binary32 md r)) ->
  Forall2 P xs (in_double op md g xs).
Proof.
  intros E H K. unfold in_double.
  assert (F : Forall2 S (map (fconv binary32 binary64 md) xs) (concat (map op (registers g (map (fconv binary32 binary64 md) xs))))).
  { rewrite <- (registers_concat g (map (fconv binary32 binary64 md) xs)) at 1 by (rewrite map_length; auto).
    apply Forall2_concat. intros ys I. apply H. intros y J.
    pose proof (registers_in _ _ _ I y J) as Q. apply in_map_iff in Q. destruct Q as (x & <- & Q). eauto. }
  clear H E. revert F. generalize (concat (map op (registers g (map (fconv binary32 binary64 md) xs)))).
  induction xs as [|x xs IH]; cbn [map]; intros r F; inversion F; subst; cbn [map]; constructor.
  - apply K; auto. left; auto.
  - apply IH; auto. intros. apply K; auto. right; auto.
Qed.

(* ------------------------------------------------------------------ *)
(* element by element *)
Definition cosl64 c ub md k x := cos_lane binary64 md (sin_series64 c md) (cos_series64 c md) (fold64 c ub k md x).
Definition sinl64 c ub md k x := sin_lane binary64 md (sin_series64 c md) (cos_series64 c md) x (fold64 c ub k md x).
Definition cosl32 c ub md k x := cos_lane binary32 md (sin_series32 c md) (cos_series32 c md) (fold32 c ub k md x).
Definition sinl32 c ub md k x := sin_lane binary32 md (sin_series32 c md) (cos_series32 c md) x (fold32 c ub k md x).
Lemma cos_reg64_lanes c ub md xs : cos_reg64 c ub md xs = map (cosl64 c ub md (fold_test64 md xs)) xs.
Proof. unfold cos_reg64. rewrite cos_select_lanes, map_map. auto. Qed.
Lemma sin_reg64_lanes c ub md xs : sin_reg64 c ub md xs = map (sinl64 c ub md (fold_test64 md xs)) xs.
Proof. unfold sin_reg64. rewrite sin_select_lanes. auto. Qed.
Lemma cos_lanes32 c ub md xs :
  cos_select binary32 md (sin_series32 c md) (cos_series32 c md) (map (fold32 c ub (fold_test32 xs) md) xs) = map (cosl32 c ub md (fold_test32 xs)) xs.
Proof. rewrite cos_select_lanes, map_map. auto. Qed.
Lemma sin_lanes32 c ub md xs :
  sin_select binary32 md (sin_series32 c md) (cos_series32 c md) (combine xs (map (fold32 c ub (fold_test32 xs) md) xs)) = map (sinl32 c ub md (fold_test32 xs)) xs.
Proof. rewrite sin_select_lanes. auto. Qed.

Definition lane_ok64 md k x : Prop :=
  match k with
  | Small64 => flt binary64 (fabs_lane binary64 x) pi_over_4_d = true
  | Medium64 => flt binary64 (fabs_lane binary64 x) (fmul binary64 ToNearest (fof_int binary64 ToNearest 1025) pi_over_4_d) = true
  | Large64 => fle binary64 (fold_y md (fabs_lane binary64 x)) (fof_int binary64 ToNearest (2 ^ 30)) = true
  | Huge64 => True
  end.
Definition lane_ok32 k x : Prop :=
  match k with
  | Small32 => flt binary32 (fabs_lane binary32 x) pi_over_4_f = true
  | Medium32 => flt binary32 (fabs_lane binary32 x) (fmul binary32 ToNearest (fof_int binary32 ToNearest 6) pi_over_4_f) = true
  | Wide32 => True
  end.
Lemma forallb_map_in {A B} (p : B -> bool) (h : A -> B) l x : forallb p (map h l) = true -> In x l -> p (h x) = true.
Proof. rewrite forallb_forall. intros H I. apply H. apply in_map. auto. Qed.
Lemma fold_test64_ok md xs x : In x xs -> lane_ok64 md (fold_test64 md xs) x.
Proof.
  intros I. unfold fold_test64. cbv zeta. match goal with |- ?P (if ?b then _ else _) _ => destruct b eqn:A end; [pose proof (forallb_map_in _ _ _ _ A I) as Q; cbv beta iota delta [lane_ok64 lane_ok32]; cbv beta in Q; exact Q|]. clear A.
  match goal with |- ?P (if ?b then _ else _) _ => destruct b eqn:A end; [pose proof (forallb_map_in _ _ _ _ A I) as Q; cbv beta iota delta [lane_ok64 lane_ok32]; cbv beta in Q; exact Q|]. clear A.
  match goal with |- ?P (if ?b then _ else _) _ => destruct b eqn:A end; [pose proof (forallb_map_in _ _ _ _ A I) as Q; cbv beta iota delta [lane_ok64 lane_ok32]; cbv beta in Q; exact Q|]. exact Logic.I.
Qed.
Lemma fold_test32_ok xs x : In x xs -> lane_ok32 (fold_test32 xs) x.
Proof.
  intros I. unfold fold_test32. cbv zeta. match goal with |- ?P (if ?b then _ else _) _ => destruct b eqn:A end; [pose proof (forallb_map_in _ _ _ _ A I) as Q; cbv beta iota delta [lane_ok64 lane_ok32]; cbv beta in Q; exact Q|]. clear A.
  match goal with |- ?P (if ?b then _ else _) _ => destruct b eqn:A end; [pose proof (forallb_map_in _ _ _ _ A I) as Q; cbv beta iota delta [lane_ok64 lane_ok32]; cbv beta in Q; exact Q|]. exact Logic.I.
Qed.
Lemma quadrant z : 0 <= Z.land z 3 < 4.
Proof. change 3 with (Z.ones 2). rewrite Z.land_ones by lia. apply Z.mod_pos_bound. lia. Qed.
Lemma fold64_quadrant c ub k md x : 0 <= snd (fold64 c ub k md x) < 4.
Proof. destruct k; unfold fold64; cbv zeta; cbn [snd]; try apply quadrant. lia. Qed.
Lemma fold32_quadrant c ub k md x : 0 <= snd (fold32 c ub k md x) < 4.
Proof. destruct k; unfold fold32; cbv zeta; cbn [snd]; try apply quadrant. lia. Qed.

(* ------------------------------------------------------------------ *)
(* NaN and infinities *)
Lemma cos_series64_nan c md x : decode binary64 x = DNaN -> decode binary64 (cos_series64 c md x) = DNaN.
Proof. intros H. unfold cos_series64. cbv zeta. apply (muladd_nan_m _ b64). apply (mul_nan_l _ b64). auto. Qed.
Lemma sin_series64_nan c md x : decode binary64 x = DNaN -> decode binary64 (sin_series64 c md x) = DNaN.
Proof. intros H. unfold sin_series64. cbv zeta. apply (muladd_nan_r _ b64). auto. Qed.
Lemma sin_series32_nan c md x : decode binary32 x = DNaN -> decode binary32 (sin_series32 c md x) = DNaN.
Proof. intros H. unfold sin_series32. cbv zeta. apply (muladd_nan_r _ b32). auto. Qed.
Lemma cos_series32_nan c md x : decode binary32 x = DNaN -> decode binary32 (cos_series32 c md x) = DNaN.
Proof.
  intros H. unfold cos_series32. cbv zeta. apply (add_nan_l _ b32). set (x2 := fmul binary32 md x x).
  assert (N : decode binary32 x2 = DNaN) by (apply (mul_nan_l _ b32); auto). unfold mul_sub_mul.
  destruct (fuse2 c).
  - apply (add_nan_l _ b32), (mul_nan_r _ b32), (mul_nan_l _ b32). auto.
  - apply (fma_nan_m _ b32), (mul_nan_l _ b32). auto.
  - apply (fma_nan_m _ b32). auto.
Qed.
Lemma cos_series64_pattern c md x : pattern binary64 (cos_series64 c md x).
Proof. unfold cos_series64. cbv zeta. apply (muladd_pattern _ b64). Qed.
Lemma sin_series64_pattern c md x : pattern binary64 (sin_series64 c md x).
Proof. unfold sin_series64. cbv zeta. apply (muladd_pattern _ b64). Qed.
Lemma cos_series32_pattern c md x : pattern binary32 (cos_series32 c md x).
Proof. unfold cos_series32. cbv zeta. apply (fadd_pattern _ b32). Qed.
Lemma sin_series32_pattern c md x : pattern binary32 (sin_series32 c md x).
Proof. unfold sin_series32. cbv zeta. apply (muladd_pattern _ b32). Qed.
Lemma flt_special f x y s m : (decode f x = DNaN \/ decode f x = DInf false) -> decode f y = DFin s m -> flt f x y = false.
Proof. intros [E|E] D; unfold flt, cmp, compare_lanes; rewrite E, D; auto. Qed.
Lemma special_abs f x : fmt_ok f -> decode f x = DNaN \/ (exists s, decode f x = DInf s) ->
  decode f (fabs_lane f x) = DNaN \/ decode f (fabs_lane f x) = DInf false.
Proof. intros Hf [E|[s E]]; rewrite (decode_fabs f Hf), E; auto. Qed.
Lemma inf_pat f x : fmt_ok f -> decode f (fabs_lane f x) = DInf false -> fabs_lane f x = inf_bits f.
Proof. intros Hf E. apply (decode_inf f Hf) in E; auto. apply (fabs_pattern f Hf). Qed.

Lemma fold64_special c ub k md x : lane_ok64 md k x -> decode binary64 x = DNaN \/ (exists s, decode binary64 x = DInf s) ->
  decode binary64 (fst (fold64 c ub k md x)) = DNaN.
Proof.
  intros O S. apply (special_abs _ _ b64) in S.
  assert (E4 : exists m, decode binary64 pi_over_4_d = DFin false m) by (eexists; vm_compute; reflexivity).
  assert (E5 : exists m, decode binary64 (fmul binary64 ToNearest (fof_int binary64 ToNearest 1025) pi_over_4_d) = DFin false m)
    by (eexists; vm_compute; reflexivity).
  destruct E4 as [m4 E4], E5 as [m5 E5].
  destruct k; unfold lane_ok64 in O.
  - rewrite (flt_special _ _ _ _ _ S E4) in O. discriminate O.
  - rewrite (flt_special _ _ _ _ _ S E5) in O. discriminate O.
  - exfalso. destruct S as [S|S].
    + assert (N : decode binary64 (fold_y md (fabs_lane binary64 x)) = DNaN).
      { unfold fold_y, fround_to_int, fdiv. rewrite S, (decode_nan _ b64). apply (decode_nan _ b64). }
      unfold fle, cmp, compare_lanes in O. rewrite N in O. discriminate O.
    + rewrite (inf_pat _ _ b64 S) in O.
      assert (N : fle binary64 (fold_y md (inf_bits binary64)) (fof_int binary64 ToNearest (2 ^ 30)) = false) by (destruct md; vm_compute; reflexivity).
      rewrite N in O. discriminate O.
  - unfold fold64. cbv zeta. cbn [fst]. apply (add_nan_l _ b64), (add_nan_l _ b64), (add_nan_l _ b64), (add_nan_l _ b64), (add_nan_l _ b64), (add_nan_l _ b64).
    destruct S as [S|S]; [apply (submul_nan_l _ b64); auto|].
    rewrite (inf_pat _ _ b64 S). destruct (fuse c 8), md; vm_compute; reflexivity.
Qed.
Lemma fold32_special c ub k md x : lane_ok32 k x -> decode binary32 x = DNaN \/ (exists s, decode binary32 x = DInf s) ->
  decode binary32 (fst (fold32 c ub k md x)) = DNaN.
Proof.
  intros O S. apply (special_abs _ _ b32) in S.
  assert (E4 : exists m, decode binary32 pi_over_4_f = DFin false m) by (eexists; vm_compute; reflexivity).
  assert (E5 : exists m, decode binary32 (fmul binary32 ToNearest (fof_int binary32 ToNearest 6) pi_over_4_f) = DFin false m)
    by (eexists; vm_compute; reflexivity).
  destruct E4 as [m4 E4], E5 as [m5 E5].
  destruct k; unfold lane_ok32 in O.
  - rewrite (flt_special _ _ _ _ _ S E4) in O. discriminate O.
  - rewrite (flt_special _ _ _ _ _ S E5) in O. discriminate O.
  - unfold fold32. cbv zeta. cbn [fst].
    assert (N : forall y, decode binary64 y = DNaN -> decode binary32 (fconv binary64 binary32 md y) = DNaN).
    { intros y E. unfold fconv. rewrite E. apply (decode_nan _ b32). }
    apply N. destruct S as [S|S].
    + apply (submul_nan_l _ b64). unfold fconv. rewrite S. apply (decode_nan _ b64).
    + rewrite (inf_pat _ _ b32 S). destruct (fuse c 8), md; vm_compute; reflexivity.
Qed.

Lemma cosl64_special c ub k md x : lane_ok64 md k x -> decode binary64 x = DNaN \/ (exists s, decode binary64 x = DInf s) ->
  decode binary64 (cosl64 c ub md k x) = DNaN.
Proof.
  intros O S. pose proof (fold64_special c ub k md x O S) as N. unfold cosl64, cos_lane.
  rewrite (cos_sign_val _ b64) by apply fold64_quadrant.
  rewrite (decode_xor _ b64) by (destruct (_ =? 0); [apply cos_series64_pattern|apply sin_series64_pattern]).
  destruct (Z.land _ 1 =? 0); [rewrite cos_series64_nan by auto|rewrite sin_series64_nan by auto]; auto.
Qed.
Lemma sinl64_special c ub k md x : pattern binary64 x -> lane_ok64 md k x -> decode binary64 x = DNaN \/ (exists s, decode binary64 x = DInf s) ->
  decode binary64 (sinl64 c ub md k x) = DNaN.
Proof.
  intros P O S. pose proof (fold64_special c ub k md x O S) as N. unfold sinl64, sin_lane.
  rewrite (sin_sign_val _ b64) by auto.
  rewrite (decode_xor _ b64) by (destruct (_ =? 0); [apply sin_series64_pattern|apply cos_series64_pattern]).
  destruct (Z.land _ 1 =? 0); [rewrite sin_series64_nan by auto|rewrite cos_series64_nan by auto]; auto.
Qed.
Lemma cosl32_special c ub k md x : lane_ok32 k x -> decode binary32 x = DNaN \/ (exists s, decode binary32 x = DInf s) ->
  decode binary32 (cosl32 c ub md k x) = DNaN.
Proof.
  intros O S. pose proof (fold32_special c ub k md x O S) as N. unfold cosl32, cos_lane.
  rewrite (cos_sign_val _ b32) by apply fold32_quadrant.
  rewrite (decode_xor _ b32) by (destruct (_ =? 0); [apply cos_series32_pattern|apply sin_series32_pattern]).
  destruct (Z.land _ 1 =? 0); [rewrite cos_series32_nan by auto|rewrite sin_series32_nan by auto]; auto.
Qed.
Lemma sinl32_special c ub k md x : pattern binary32 x -> lane_ok32 k x -> decode binary32 x = DNaN \/ (exists s, decode binary32 x = DInf s) ->
  decode binary32 (sinl32 c ub md k x) = DNaN.
Proof.
  intros P O S. pose proof (fold32_special c ub k md x O S) as N. unfold sinl32, sin_lane.
  rewrite (sin_sign_val _ b32) by auto.
  rewrite (decode_xor _ b32) by (destruct (_ =? 0); [apply sin_series32_pattern|apply cos_series32_pattern]).
  destruct (Z.land _ 1 =? 0); [rewrite sin_series32_nan by auto|rewrite cos_series32_nan by auto]; auto.
Qed.

Theorem special_cos64 c ub md xs :
  Forall2 (fun x r => no_number (decode binary64 x) -> decode binary64 r = DNaN) xs (cos_reg64 c ub md xs).
Proof.
  rewrite cos_reg64_lanes. apply Forall2_map_in. intros x I S. apply cosl64_special; [apply fold_test64_ok; auto|].
  destruct (decode binary64 x); [auto|eauto|destruct S].
Qed.
Theorem special_sin64 c ub md xs : Forall (pattern binary64) xs ->
  Forall2 (fun x r => no_number (decode binary64 x) -> decode binary64 r = DNaN) xs (sin_reg64 c ub md xs).
Proof.
  intros P. rewrite Forall_forall in P. rewrite sin_reg64_lanes. apply Forall2_map_in. intros x I S. apply sinl64_special; [auto|apply fold_test64_ok; auto|].
  destruct (decode binary64 x); [auto|eauto|destruct S].
Qed.
Lemma included_fd : included binary32 binary64.
Proof. split; vm_compute; discriminate. Qed.
Lemma widen_no_number md x : pattern binary32 x -> no_number (decode binary32 x) -> no_number (decode binary64 (fconv binary32 binary64 md x)).
Proof.
  intros P S. destruct (fconv_included binary32 binary64 b32 b64 md x included_fd P) as [_ E]. rewrite E.
  destruct (decode binary32 x); auto.
Qed.
Lemma conv_nan md r : decode binary64 r = DNaN -> decode binary32 (fconv binary64 binary32 md r) = DNaN.
Proof. intros E. unfold fconv. rewrite E. apply (decode_nan _ b32). Qed.
Theorem special_cos32 c ub md g xs : list_sum g = length xs -> Forall (pattern binary32) xs ->
  Forall2 (fun x r => no_number (decode binary32 x) -> decode binary32 r = DNaN) xs (cos_reg32 c ub md g xs).
Proof.
  intros E P. rewrite Forall_forall in P. unfold cos_reg32. match goal with |- _ _ _ (if ?b then _ else _) => destruct b end.
  - eapply in_double_lanes; [auto|intros; apply special_cos64|]. cbv beta. intros x r I H S. apply conv_nan, H, widen_no_number; auto.
  - rewrite cos_lanes32. apply Forall2_map_in. intros x I S. apply cosl32_special; [apply fold_test32_ok; auto|].
    destruct (decode binary32 x); [auto|eauto|destruct S].
Qed.
Theorem special_sin32 c ub md g xs : list_sum g = length xs -> Forall (pattern binary32) xs ->
  Forall2 (fun x r => no_number (decode binary32 x) -> decode binary32 r = DNaN) xs (sin_reg32 c ub md g xs).
Proof.
  intros E P. rewrite Forall_forall in P. unfold sin_reg32. match goal with |- _ _ _ (if ?b then _ else _) => destruct b end.
  - eapply in_double_lanes; [auto| |].
    + intros ys H. apply special_sin64. apply Forall_forall. intros y I. destruct (H y I) as (x & Ix & ->).
      apply (fconv_included binary32 binary64 b32 b64 md x included_fd). auto.
    + cbv beta. intros x r I H S. apply conv_nan, H, widen_no_number; auto.
  - rewrite sin_lanes32. apply Forall2_map_in. intros x I S. apply sinl32_special; [auto|apply fold_test32_ok; auto|].
    destruct (decode binary32 x); [auto|eauto|destruct S].
Qed.

(* ------------------------------------------------------------------ *)
(* cos(-x) = cos(x) *)
Lemma fold64_abs c ub k md x y : fabs_lane binary64 x = fabs_lane binary64 y -> fold64 c ub k md x = fold64 c ub k md y.
Proof. intros E. unfold fold64. rewrite E. auto. Qed.
Lemma fold32_abs c ub k md x y : fabs_lane binary32 x = fabs_lane binary32 y -> fold32 c ub k md x = fold32 c ub k md y.
Proof. intros E. unfold fold32. rewrite E. auto. Qed.
Lemma map_abs {B} (h : Z -> B) f xs ys : (forall x y, fabs_lane f x = fabs_lane f y -> h x = h y) ->
  map (fabs_lane f) xs = map (fabs_lane f) ys -> map h xs = map h ys.
Proof.
  intros H. revert ys. induction xs as [|x xs IH]; intros [|y ys]; cbn [map]; intros E; try discriminate; auto.
  injection E as E1 E2. f_equal; auto.
Qed.
Lemma fold_test64_abs md xs ys : map (fabs_lane binary64) xs = map (fabs_lane binary64) ys -> fold_test64 md xs = fold_test64 md ys.
Proof. intros E. unfold fold_test64. rewrite E. auto. Qed.
Lemma fold_test32_abs xs ys : map (fabs_lane binary32) xs = map (fabs_lane binary32) ys -> fold_test32 xs = fold_test32 ys.
Proof. intros E. unfold fold_test32. rewrite E. auto. Qed.
Lemma cos64_abs c ub md xs ys : map (fabs_lane binary64) xs = map (fabs_lane binary64) ys -> cos_reg64 c ub md xs = cos_reg64 c ub md ys.
Proof.
  intros E. rewrite !cos_reg64_lanes, (fold_test64_abs md xs ys E). apply (map_abs _ binary64); auto.
  intros x y H. unfold cosl64. rewrite (fold64_abs _ _ _ _ x y H). auto.
Qed.
Lemma widen_neg md x : pattern binary32 x -> decode binary32 x <> DNaN ->
  fconv binary32 binary64 md (fneg binary32 x) = fneg binary64 (fconv binary32 binary64 md x).
Proof.
  intros P N. destruct (fconv_included binary32 binary64 b32 b64 md x included_fd P) as [PX EX].
  destruct (fconv_included binary32 binary64 b32 b64 md _ included_fd (fneg_pattern _ b32 x P)) as [PY EY].
  rewrite (decode_neg _ b32 x P) in EY. pose proof (decode_neg _ b64 _ PX) as EN. rewrite EX in EN.
  pose proof (fneg_pattern _ b64 _ PX) as PN.
  destruct (decode binary32 x) as [|s|s m]; [congruence| |].
  - rewrite (decode_inf _ b64 _ _ PN EN), (decode_inf _ b64 _ _ PY EY). auto.
  - eapply (decode_inj_fin _ b64); eauto.
Qed.
Lemma widen_abs md x : pattern binary32 x ->
  fabs_lane binary64 (fconv binary32 binary64 md (fneg binary32 x)) = fabs_lane binary64 (fconv binary32 binary64 md x).
Proof.
  intros P. destruct (decode binary32 x) as [|s|s m] eqn:D.
  - unfold fconv. rewrite (decode_neg _ b32 x P), D. auto.
  - rewrite widen_neg by (auto; congruence). apply (fabs_neg _ b64). apply (fconv_included binary32 binary64 b32 b64 md x included_fd P).
  - rewrite widen_neg by (auto; congruence). apply (fabs_neg _ b64). apply (fconv_included binary32 binary64 b32 b64 md x included_fd P).
Qed.
Lemma registers_abs (h : list Z -> list Z) : (forall ys zs, map (fabs_lane binary64) ys = map (fabs_lane binary64) zs -> h ys = h zs) ->
  forall g ys zs, map (fabs_lane binary64) ys = map (fabs_lane binary64) zs ->
  map h (registers g ys) = map h (registers g zs).
Proof.
  intros H. induction g as [|n g IH]; intros ys zs E; cbn [registers map]; auto. f_equal.
  - apply H. rewrite <- !firstn_map, E. auto.
  - apply IH. rewrite <- !skipn_map, E. auto.
Qed.
Lemma abs_neg_list f xs : fmt_ok f -> Forall (pattern f) xs -> map (fabs_lane f) (map (fneg f) xs) = map (fabs_lane f) xs.
Proof. intros Hf P. rewrite map_map. apply map_ext_in. intros x I. rewrite Forall_forall in P. apply (fabs_neg f Hf). auto. Qed.
Lemma widen_abs_list md xs : Forall (pattern binary32) xs ->
  map (fabs_lane binary64) (map (fconv binary32 binary64 md) (map (fneg binary32) xs)) = map (fabs_lane binary64) (map (fconv binary32 binary64 md) xs).
Proof. intros P. rewrite !map_map. apply map_ext_in. intros x I. rewrite Forall_forall in P. apply widen_abs. auto. Qed.
Lemma existsb_abs f (p : Z -> bool) xs ys : map (fabs_lane f) xs = map (fabs_lane f) ys ->
  existsb (fun x => p (fabs_lane f x)) xs = existsb (fun x => p (fabs_lane f x)) ys.
Proof.
  revert ys. induction xs as [|x xs IH]; intros [|y ys]; cbn [map existsb]; intros E; try discriminate; auto.
  injection E as E1 E2. rewrite E1. f_equal. auto.
Qed.
Theorem even_cos64 c ub md xs : Forall (pattern binary64) xs -> cos_reg64 c ub md (map (fneg binary64) xs) = cos_reg64 c ub md xs.
Proof. intros P. apply cos64_abs. apply abs_neg_list; auto. apply b64. Qed.
Theorem even_cos32 c ub md g xs : Forall (pattern binary32) xs -> cos_reg32 c ub md g (map (fneg binary32) xs) = cos_reg32 c ub md g xs.
Proof.
  intros P. pose proof (abs_neg_list _ _ b32 P) as E. unfold cos_reg32.
  rewrite (existsb_abs binary32 (fun a => fge binary32 a (fof_int binary32 ToNearest 393382)) _ _ E).
  match goal with |- (if ?b then _ else _) = _ => destruct b end.
  - unfold in_double. f_equal. f_equal. apply registers_abs; [intros; apply cos64_abs; auto|]. apply widen_abs_list. auto.
  - rewrite !cos_lanes32, (fold_test32_abs _ _ E). apply (map_abs _ binary32); auto.
    intros x y H. unfold cosl32. rewrite (fold32_abs _ _ _ _ x y H). auto.
Qed.

(* ------------------------------------------------------------------ *)
(* sin(-x) = -sin(x) *)
Definition flipped (x x' : Z) : Prop :=
  pattern binary64 x' /\ fabs_lane binary64 x' = fabs_lane binary64 x /\ (x' = fneg binary64 x \/ decode binary64 x = DNaN).
Lemma sinl_neg f md S C x p : fmt_ok f -> pattern f x -> (forall r, pattern f (S r)) -> (forall r, pattern f (C r)) ->
  decode f (sin_lane f md S C (fneg f x) p) = opposite (decode f (sin_lane f md S C x p)).
Proof.
  intros Hf P PS PC. unfold sin_lane. rewrite !(sin_sign_val f Hf) by (auto; apply (fneg_pattern f Hf); auto).
  rewrite (neg_sign f Hf) by auto. set (r := if _ : bool then S _ else C _).
  assert (PR : pattern f r) by (unfold r; destruct (_ =? 0); auto).
  rewrite !(decode_xor f Hf) by auto. destruct (decode f r) as [|s|s m]; cbn [opposite]; auto; f_equal;
    destruct (sign_of f x), (1 - snd p <? 0), s; auto.
Qed.
Lemma sinl64_flip c ub md k x x' : pattern binary64 x -> lane_ok64 md k x -> flipped x x' ->
  decode binary64 (sinl64 c ub md k x') = opposite (decode binary64 (sinl64 c ub md k x)).
Proof.
  intros P O (P' & A & [->|N]).
  - unfold sinl64. rewrite (fold64_abs _ _ _ _ _ _ A). apply (sinl_neg _ _ _ _ _ _ b64); auto.
    + apply sin_series64_pattern.
    + apply cos_series64_pattern.
  - rewrite (sinl64_special c ub k md x) by auto. cbn [opposite]. apply sinl64_special; auto.
    + unfold lane_ok64 in *. destruct k; rewrite ?A; auto.
    + left. pose proof (decode_fabs _ b64 x') as E. rewrite A, (decode_fabs _ b64 x), N in E.
      destruct (decode binary64 x'); auto; discriminate E.
Qed.
Lemma flipped_abs xs xs' : Forall2 flipped xs xs' -> map (fabs_lane binary64) xs' = map (fabs_lane binary64) xs.
Proof. induction 1 as [|x x' xs xs' (P & A & _) H IH]; cbn [map]; congruence. Qed.
Lemma odd_sin64_gen c ub md xs xs' : Forall (pattern binary64) xs -> Forall2 flipped xs xs' ->
  map (decode binary64) (sin_reg64 c ub md xs') = map opposite (map (decode binary64) (sin_reg64 c ub md xs)).
Proof.
  intros P F. rewrite !sin_reg64_lanes, (fold_test64_abs md xs' xs (flipped_abs _ _ F)).
  assert (O : Forall (lane_ok64 md (fold_test64 md xs)) xs) by (apply Forall_forall; intros; apply fold_test64_ok; auto).
  revert O. generalize (fold_test64 md xs) as k. intros k O. rewrite !map_map.
  induction F as [|x x' xs xs' Fx F IH]; cbn [map]; auto. inversion P; inversion O; subst. f_equal; auto.
  apply sinl64_flip; auto.
Qed.
Lemma flipped_neg x : pattern binary64 x -> flipped x (fneg binary64 x).
Proof. intros P. split; [apply (fneg_pattern _ b64); auto|]. split; auto. apply (fabs_neg _ b64); auto. Qed.
Theorem odd_sin64 c ub md xs : Forall (pattern binary64) xs ->
  map (decode binary64) (sin_reg64 c ub md (map (fneg binary64) xs)) = map opposite (map (decode binary64) (sin_reg64 c ub md xs)).
Proof.
  intros P. apply odd_sin64_gen; auto. apply Forall2_map_in. intros x I. apply flipped_neg. rewrite Forall_forall in P. auto.
Qed.
Lemma fround_neg f md z v k : fmt_ok f -> 0 <= k -> symmetric md ->
  decode f (fround f md (negb z) (- v) k) = opposite (decode f (fround f md z v k)).
Proof.
  intros Hf Hk S. unfold fround.
  replace (- v =? 0) with (v =? 0) by (destruct (Z.eqb_spec v 0), (Z.eqb_spec (- v) 0); lia).
  pose proof (inf_pos f Hf). destruct (Z.eqb_spec v 0) as [E|E].
  - rewrite !(decode_with_sign f Hf) by lia. auto.
  - rewrite Z.abs_opp. replace (- v <? 0) with (negb (v <? 0)) by (destruct (Z.ltb_spec v 0), (Z.ltb_spec (- v) 0); auto; lia).
    assert (R : forall s, round_bits f md s (Z.abs v) k = round_bits f md false (Z.abs v) k).
    { intros s. unfold round_bits, round_up_mag. destruct S as [-> | ->]; auto. }
    rewrite (R (negb _)), (R (v <? 0)).
    pose proof (round_bits_range f Hf md false k (Z.abs v) Hk ltac:(lia)) as B. set (r := round_bits _ _ _ _ _) in *.
    destruct (Z.eq_dec r (inf_bits f)) as [->|NE].
    + rewrite !(decode_with_inf f Hf). auto.
    + rewrite !(decode_with_sign f Hf) by lia. auto.
Qed.
Lemma conv_opp md r r' : symmetric md -> decode binary64 r' = opposite (decode binary64 r) ->
  decode binary32 (fconv binary64 binary32 md r') = opposite (decode binary32 (fconv binary64 binary32 md r)).
Proof.
  intros S E. unfold fconv. rewrite E. destruct (decode binary64 r) as [|s|s m]; cbn [opposite].
  - rewrite (decode_nan _ b32). auto.
  - rewrite !(decode_with_inf _ b32). auto.
  - change (unit binary64 <=? unit binary32) with false. cbv iota.
    replace (num (negb s) m) with (- num s m) by (destruct s; cbn [num negb]; ring).
    apply (fround_neg _ md s (num s m) _ b32); [vm_compute; discriminate|auto].
Qed.
Lemma flipped_registers g : forall xs xs', Forall2 flipped xs xs' -> Forall2 (Forall2 flipped) (registers g xs) (registers g xs').
Proof.
  induction g as [|n g IH]; intros xs xs' F; cbn [registers]; constructor.
  - revert n. induction F; intros [|n]; cbn [firstn]; constructor; auto.
  - apply IH. clear IH. revert n. induction F; intros [|n]; cbn [skipn]; auto.
Qed.
Lemma registers_pattern g : forall xs, Forall (pattern binary64) xs -> Forall (Forall (pattern binary64)) (registers g xs).
Proof.
  intros xs P. rewrite Forall_forall in P. apply Forall_forall. intros ys I. apply Forall_forall. intros y J.
  apply P. eapply registers_in; eauto.
Qed.
Theorem odd_sin32 c ub md g xs : Forall (pattern binary32) xs -> symmetric md ->
  map (decode binary32) (sin_reg32 c ub md g (map (fneg binary32) xs)) = map opposite (map (decode binary32) (sin_reg32 c ub md g xs)).
Proof.
  intros P Sy. pose proof (abs_neg_list _ _ b32 P) as E. unfold sin_reg32.
  rewrite (existsb_abs binary32 (fun a => fge binary32 a (fof_int binary32 ToNearest 527449)) _ _ E).
  match goal with |- map _ (if ?b then _ else _) = _ => destruct b end.
  - unfold in_double. set (w := fconv binary32 binary64 md). rewrite !map_map with (f := fconv binary64 binary32 md).
    assert (PW : Forall (pattern binary64) (map w xs)).
    { apply Forall_forall. intros y I. apply in_map_iff in I. destruct I as (x & <- & I). rewrite Forall_forall in P.
      apply (fconv_included binary32 binary64 b32 b64 md x included_fd). auto. }
    assert (F : Forall2 flipped (map w xs) (map w (map (fneg binary32) xs))).
    { clear E. induction P as [|x xs Px P IH]; cbn [map]; constructor.
      - destruct (fconv_included binary32 binary64 b32 b64 md x included_fd Px) as [PX EX].
        split; [apply (fconv_included binary32 binary64 b32 b64 md _ included_fd), (fneg_pattern _ b32), Px|].
        split; [apply widen_abs; auto|]. destruct (decode binary32 x) as [|s|s m] eqn:D; [auto|left; apply widen_neg; auto; congruence ..].
      - apply IH. inversion PW; auto. }
    pose proof (flipped_registers g _ _ F) as FR. pose proof (registers_pattern g _ PW) as PR.
    revert FR PR. generalize (registers g (map w xs)) (registers g (map w (map (fneg binary32) xs))).
    intros L L' FR PR. induction FR as [|ys ys' L L' Fy FR IH]; cbn [map concat]; auto.
    inversion PR; subst. rewrite !map_app. f_equal; auto.
    pose proof (odd_sin64_gen c ub md ys ys' ltac:(auto) Fy) as O. revert O.
    generalize (sin_reg64 c ub md ys) (sin_reg64 c ub md ys'). intros a b. revert a.
    induction b as [|v b IHb]; intros [|u a]; cbn [map]; intros O; try discriminate; auto.
    injection O as O1 O2. f_equal; auto. apply conv_opp; auto.
  - rewrite !sin_lanes32, (fold_test32_abs _ _ E), !map_map. apply map_ext_in. intros x I. unfold sinl32.
    rewrite Forall_forall in P. rewrite (fold32_abs _ _ _ _ _ _ (fabs_neg _ b32 x (P x I))).
    apply (sinl_neg _ _ _ _ _ _ b32); auto.
    + apply sin_series32_pattern.
    + apply cos_series32_pattern.
Qed.
