(* C34, C35, C37. *)
From Coq Require Import ZArith List Bool Lia Psatz.
From Verif Require Import Prelude X86Lanes Fixed FloatSpec FloatRoundSpec FloatMathSpec FloatBits FloatArith FloatProofs
  FloatArithProofs FloatRound FloatRoundProofs FloatRoundTop FloatSign FloatTop FloatMath FloatMathProofs FloatFrexp FloatLogb.
Import ListNotations.
Open Scope Z_scope.

Lemma frexp_self avx t f md x : real_fmt f -> pattern f x ->
  match decode f x with DFin _ m => m = 0 | _ => True end -> fst (frexp_one f avx t md x) = x.
Proof.
  intros Hr Hx H. unfold frexp_one. destruct avx.
  - unfold frexp_avx512. cbn [fst]. rewrite (isnonzero_ok f Hr) by auto. destruct (decode f x); auto. subst. auto.
  - unfold frexp_slow. cbn [fst]. rewrite (class_bits f Hr) by auto. destruct (decode f x); auto. subst. auto.
Qed.

Lemma frexp_total avx t f md xs : (avx = false -> target_ok t /\ dq_ok t) -> exists rs, frexp_reg avx t f md xs = Some rs.
Proof.
  intros H. unfold frexp_reg. destruct avx; [eauto|]. destruct (H eq_refl) as [T D]. unfold frexp_generic.
  assert (K : exists ns, omapm (isnormal_lane t f) xs = Some ns).
  { induction xs as [|x xs [ns IH]]; [exists []; auto|]. cbn [omapm]. rewrite IH.
    pose proof (isnormal_total t f x T D). destruct (isnormal_lane t f x); [eauto|congruence]. }
  destruct K as [ns ->]. destruct (forallb _ ns); eauto.
Qed.
Lemma logb_total instr t f md xs : (instr = false -> target_ok t /\ dq_ok t) -> exists rs, logb_reg instr t f md xs = Some rs.
Proof.
  intros H. unfold logb_reg. destruct instr; [eauto|]. destruct (H eq_refl) as [T D]. unfold logb_generic.
  assert (K : exists ns, omapm (isnormal_lane t f) xs = Some ns).
  { induction xs as [|x xs [ns IH]]; [exists []; auto|]. cbn [omapm]. rewrite IH.
    pose proof (isnormal_total t f x T D). destruct (isnormal_lane t f x); [eauto|congruence]. }
  destruct K as [ns ->]. destruct (forallb _ ns); eauto. cbv zeta. destruct (forallb _ _); eauto.
Qed.

Lemma c34_frexp avx t f md xs : real_fmt f -> (avx = false -> target_ok t /\ dq_ok t) -> Forall (pattern f) xs ->
  exists rs, frexp_reg avx t f md xs = Some rs /\ length rs = length xs /\
    forall i x, nth_error xs i = Some x -> exists y e, nth_error rs i = Some (y, e) /\
      frexp_result f (decode f x) (decode f y) e /\
      (match decode f x with DFin _ m => m = 0 | _ => True end -> y = x).
Proof.
  intros Hr HT HP. destruct (frexp_total avx t f md xs HT) as [rs E]. exists rs. split; auto.
  destruct (frexp_vector f Hr avx t md xs rs HP E) as [-> F]. split; [apply map_length|].
  intros i x Hi. rewrite Forall_forall in HP. assert (Hx : pattern f x) by (apply HP; eapply nth_error_In; eauto).
  exists (fst (frexp_one f avx t md x)), (snd (frexp_one f avx t md x)).
  rewrite (map_nth_error _ _ _ Hi), <- surjective_pairing. split; auto. split; [|apply frexp_self; auto].
  apply (frexp_one_ok f Hr); auto. intros A. specialize (F A). rewrite Forall_forall in F. apply F. eapply nth_error_In; eauto.
Qed.
Lemma c34_independent avx t f md xs ys rs ss i j : real_fmt f -> Forall (pattern f) xs -> Forall (pattern f) ys ->
  frexp_reg avx t f md xs = Some rs -> frexp_reg avx t f md ys = Some ss ->
  nth_error xs i = nth_error ys j -> nth_error rs i = nth_error ss j.
Proof.
  intros Hr HX HY EX EY E. destruct (frexp_vector f Hr avx t md xs rs HX EX) as [-> _].
  destruct (frexp_vector f Hr avx t md ys ss HY EY) as [-> _]. rewrite !nth_error_map, E. auto.
Qed.
Lemma c35_logb instr t f md xs : real_fmt f -> (instr = false -> target_ok t /\ dq_ok t) -> Forall (pattern f) xs ->
  exists rs, logb_reg instr t f md xs = Some rs /\ length rs = length xs /\
    forall i x, nth_error xs i = Some x -> exists y, nth_error rs i = Some y /\ logb_result f (decode f x) (decode f y).
Proof.
  intros Hr HT HP. destruct (logb_total instr t f md xs HT) as [rs E]. exists rs. split; auto.
  destruct (logb_vector f Hr instr t md xs rs HP E) as [-> F]. split; [apply map_length|].
  intros i x Hi. rewrite Forall_forall in HP. assert (Hx : pattern f x) by (apply HP; eapply nth_error_In; eauto).
  exists (logb_one f instr t md x). rewrite (map_nth_error _ _ _ Hi). split; auto.
  apply (logb_one_ok f Hr); auto. intros A. specialize (F A). rewrite Forall_forall in F. apply F. eapply nth_error_In; eauto.
Qed.
Lemma c35_independent instr t f md xs ys rs ss i j : real_fmt f -> Forall (pattern f) xs -> Forall (pattern f) ys ->
  logb_reg instr t f md xs = Some rs -> logb_reg instr t f md ys = Some ss ->
  nth_error xs i = nth_error ys j -> nth_error rs i = nth_error ss j.
Proof.
  intros Hr HX HY EX EY E. destruct (logb_vector f Hr instr t md xs rs HX EX) as [-> _].
  destruct (logb_vector f Hr instr t md ys ss HY EY) as [-> _]. rewrite !nth_error_map, E. auto.
Qed.

Lemma c37_copysign f xs ys : fmt_ok f -> Forall (pattern f) xs -> Forall (pattern f) ys -> length xs = length ys ->
  length (copysign_reg f xs ys) = length xs /\
  forall i x y, nth_error xs i = Some x -> nth_error ys i = Some y ->
    exists r, nth_error (copysign_reg f xs ys) i = Some r /\ pattern f r /\
      r mod 2 ^ (fw f - 1) = x mod 2 ^ (fw f - 1) /\ sign_of f r = sign_of f y.
Proof.
  intros Hf HX HY L. unfold copysign_reg. split; [rewrite map_length, combine_length; lia|].
  intros i x y Hx Hy. exists (copysign_lane f x y).
  rewrite (nth_map_combine (fun p => copysign_lane f (fst p) (snd p)) xs ys i x y Hx Hy). cbn [fst snd].
  rewrite Forall_forall in HX, HY. pose proof (mag_bits_bound f Hf x).
  assert (Px : pattern f x) by (apply HX; eapply nth_error_In; eauto).
  assert (Py : pattern f y) by (apply HY; eapply nth_error_In; eauto).
  rewrite (copysign_val f Hf) by auto.
  split; auto. split; [apply (with_sign_pattern f Hf); auto|].
  split; [apply (mag_with_sign f); auto|apply (sign_with_sign f); auto].
Qed.
Lemma c37_abs f xs : fmt_ok f -> abs_reg f xs = map (fun x => x mod 2 ^ (fw f - 1)) xs.
Proof. intros Hf. unfold abs_reg. apply map_ext. intros x. apply (fabs_val f Hf). Qed.
Lemma c37_modf t rt f md xs b : real_fmt f -> Forall (pattern f) xs ->
  (b = true -> rt = RInstr \/ (md <> Downward /\ (rt = ROther \/ f = binary64))) ->
  length (fst (modf_reg t rt f md xs)) = length xs /\ length (snd (modf_reg t rt f md xs)) = length xs /\
  forall i x, nth_error xs i = Some x ->
    exists fr it, nth_error (fst (modf_reg t rt f md xs)) i = Some fr /\ nth_error (snd (modf_reg t rt f md xs)) i = Some it /\
      modf_result b f (decode f x) (decode f fr) (decode f it).
Proof.
  intros Hr HX HB. unfold modf_reg. cbn [fst snd]. rewrite !map_length. split; auto. split; auto.
  intros i x Hi. rewrite Forall_forall in HX. assert (Hx : pattern f x) by (apply HX; eapply nth_error_In; eauto).
  exists (fst (modf_lane t rt f md x)), (snd (modf_lane t rt f md x)). rewrite !nth_error_map, Hi. split; auto. split; auto.
  apply (modf_ok f (real_ok f Hr)); auto using trunc_lane_ok. intros E s m D. apply trunc_sign; auto.
Qed.
