(* The lane computations of the x86 conversions: what they return as numbers. *)
From Coq Require Import ZArith List Bool Lia Psatz.
From Verif Require Import Prelude X86Lanes FloatSpec FloatRoundSpec FloatBits FloatArith FloatProofs
  FloatArithProofs FloatRoundProofs FloatRoundTop ScalarSpec Scalar NarrowSpec Narrow NarrowProofs XConv XConvSpec.
Import ListNotations.
Open Scope Z_scope.

(* ------------------------------------------------------------------ *)
(* formats *)
Lemma fmt_of_ok w : fmt_ok (fmt_of w).
Proof. unfold fmt_of. destruct (_ =? _)%nat; [exact b32_ok|exact b64_ok]. Qed.
Lemma format_fmt_of w l : l = binary64 -> format l (if (w =? 4)%nat then FFloat else FDouble) = fmt_of w.
Proof. intros ->. unfold fmt_of. destruct (_ =? _)%nat; reflexivity. Qed.

Lemma fround_nz f md z z' v k : v <> 0 \/ z = z' -> fround f md z v k = fround f md z' v k.
Proof. unfold fround. destruct (Z.eqb_spec v 0); auto. intros [?| ->]; [contradiction|auto]. Qed.

Section Fmt.
  Variable f : fmt.
  Hypothesis Hf : fmt_ok f.
  Let ONE : 0 < one f := one_pos f Hf.

  (* h * 2^c as a product of floats *)
  Lemma mul_pow md h c : Z.abs h <= 2 ^ fp f -> 0 <= c <= fp f -> c + fp f + 2 < 2 * bias f - unit f ->
    decode f (fmul f md (fof_int f md h) (fof_int f ToNearest (2 ^ c))) = DFin (h <? 0) (Z.abs h * 2 ^ c * one f).
  Proof.
    intros Hh Hc Hb. destruct (fof_int_exact f Hf md h Hh) as [_ D1].
    assert (P : 0 < 2 ^ c) by (apply Z.pow_pos_nonneg; lia).
    assert (HP : 2 ^ c <= 2 ^ fp f) by (apply Z.pow_le_mono_r; lia).
    destruct (fof_int_exact f Hf ToNearest (2 ^ c)) as [_ D2]; [lia|].
    pose proof (unit_pos f Hf) as HU. pose proof (mb_pos f Hf) as HMB.
    assert (FP : 2 ^ fp f = 2 * 2 ^ mb f).
    { unfold mb. rewrite <- Z.pow_succ_r by (destruct Hf; lia). f_equal. lia. }
    unfold fmul. rewrite D1, D2. replace (2 ^ c <? 0) with false by (symmetry; apply Z.ltb_ge; lia).
    rewrite (Z.abs_eq (2 ^ c)) by lia. rewrite xorb_false_r.
    rewrite (fround_exact f Hf md (h <? 0) _ (unit f) (h * 2 ^ c * one f)).
    - rewrite !Z.abs_mul, (Z.abs_eq (2 ^ c)), (Z.abs_eq (one f)) by lia. f_equal.
      destruct (Z.eqb_spec (num (h <? 0) (Z.abs h * one f) * num false (2 ^ c * one f)) 0); auto.
      destruct (Z.ltb_spec (h * 2 ^ c * one f) 0), (Z.ltb_spec h 0); auto; nia.
    - lia.
    - change (2 ^ unit f) with (one f). destruct (Z.ltb_spec h 0); unfold num; [rewrite Z.abs_neq by lia|rewrite Z.abs_eq by lia]; ring.
    - apply (repr_scaled f Hf (Z.abs h) (c + unit f)); try lia.
      + rewrite !Z.abs_mul, (Z.abs_eq (2 ^ c)), (Z.abs_eq (one f)) by lia. unfold one. rewrite Z.pow_add_r by lia. ring.
      + rewrite !Z.abs_mul, (Z.abs_eq (2 ^ c)), (Z.abs_eq (one f)) by lia.
        apply Z.le_lt_trans with (2 ^ (fp f + c + unit f)).
        * unfold one. rewrite !Z.pow_add_r by (try lia; destruct Hf; unfold mb in *; lia). nia.
        * apply (pow_lt_inf f Hf). destruct Hf; lia.
  Qed.

  (* hi * 2^c + lo with one rounding *)
  Lemma hi_lo md h l c : Z.abs h <= 2 ^ fp f -> 0 <= l < 2 ^ c -> l <= 2 ^ fp f -> 0 <= c <= fp f ->
    c + fp f + 2 < 2 * bias f - unit f ->
    fadd f md (fmul f md (fof_int f md h) (fof_int f ToNearest (2 ^ c))) (fof_int f md l) = fof_int f md (h * 2 ^ c + l).
  Proof.
    intros Hh Hl Hl2 Hc Hb. pose proof (mul_pow md h c Hh Hc Hb) as D1.
    destruct (fof_int_exact f Hf md l ltac:(lia)) as [_ D2]. unfold fadd. rewrite D1, D2.
    replace (l <? 0) with false by (symmetry; apply Z.ltb_ge; lia). rewrite (Z.abs_eq l) by lia.
    unfold fof_int. change (2 ^ unit f) with (one f).
    replace (num (h <? 0) (Z.abs h * 2 ^ c * one f) + num false (l * one f)) with ((h * 2 ^ c + l) * one f)
      by (destruct (Z.ltb_spec h 0); unfold num; [rewrite Z.abs_neq by lia|rewrite Z.abs_eq by lia]; ring).
    apply fround_nz. destruct (Z.eq_dec (h * 2 ^ c + l) 0) as [E|N]; [right|left; nia].
    assert (h = 0) by nia. subst h. reflexivity.
  Qed.
End Fmt.

Lemma u32_f32_lane md h l : 0 <= h < 2 ^ 16 -> 0 <= l < 2 ^ 16 ->
  fadd binary32 md (fmul binary32 md (fof_int binary32 md h) (fof_int binary32 ToNearest two16)) (fof_int binary32 md l)
  = fof_int binary32 md (h * 2 ^ 16 + l).
Proof.
  intros Hh Hl. change two16 with (2 ^ 16). apply hi_lo; [exact b32_ok|..];
    try (change (fp binary32) with 24; change (bias binary32) with 127; change (unit binary32) with 149); lia.
Qed.
Lemma i64_f64_lane md h l : - 2 ^ 31 <= h < 2 ^ 32 -> 0 <= l < 2 ^ 32 ->
  fadd binary64 md (fmul binary64 md (fof_int binary64 md h) (fof_int binary64 ToNearest two32)) (fof_int binary64 md l)
  = fof_int binary64 md (h * 2 ^ 32 + l).
Proof.
  intros Hh Hl. change two32 with (2 ^ 32). apply hi_lo; [exact b64_ok|..];
    try (change (fp binary64) with 53; change (bias binary64) with 1023; change (unit binary64) with 1074); lia.
Qed.

(* the same-value property of exact results *)
Lemma fof_int_unique f md v x : fmt_ok f -> Z.abs v <= 2 ^ fp f -> pattern f x ->
  decode f x = DFin (v <? 0) (Z.abs v * one f) -> x = fof_int f md v.
Proof.
  intros Hf Hv Hx D. destruct (fof_int_exact f Hf md v Hv) as [P E].
  eapply decode_inj_fin; eauto.
Qed.

Lemma u32_f64_lane md p : 0 <= p < 2 ^ 32 -> (md = Downward -> p <> 0) ->
  fadd binary64 md (fof_int binary64 md (p - 2 ^ 31)) (fof_int binary64 ToNearest two31) = fof_int binary64 md p.
Proof.
  intros Hp Hz. change two31 with (2 ^ 31). pose proof b64_ok as Hf. pose proof (one_pos _ Hf) as ONE.
  assert (FP : 2 ^ fp binary64 = 2 ^ 53) by reflexivity.
  destruct (fof_int_exact _ Hf md (p - 2 ^ 31) ltac:(rewrite FP; lia)) as [_ D1].
  destruct (fof_int_exact _ Hf ToNearest (2 ^ 31) ltac:(rewrite FP; lia)) as [_ D2].
  apply fof_int_unique; auto; [rewrite FP; lia|apply fadd_pattern; auto|].
  unfold fadd. rewrite D1, D2. replace (2 ^ 31 <? 0) with false by reflexivity. rewrite (Z.abs_eq (2 ^ 31)) by lia.
  set (o := one binary64) in *.
  replace (num (p - 2 ^ 31 <? 0) (Z.abs (p - 2 ^ 31) * o) + num false (2 ^ 31 * o)) with (p * o)
    by (destruct (Z.ltb_spec (p - 2 ^ 31) 0); unfold num; [rewrite Z.abs_neq by lia|rewrite Z.abs_eq by lia]; ring).
  rewrite (fround_exact _ Hf md _ _ 0 (p * o)); [|lia|lia|].
  - rewrite Z.abs_mul, (Z.abs_eq o) by lia. f_equal. replace (p <? 0) with false by (symmetry; apply Z.ltb_ge; lia).
    destruct (Z.eqb_spec (p * o) 0) as [E|N].
    + assert (p = 0) by nia. subst p. cbn [Z.ltb Z.compare Z.sub]. destruct md; auto. exfalso. apply Hz; auto.
    + apply Z.ltb_ge. nia.
  - apply repr_int; auto. replace (2 * 2 ^ mb binary64) with (2 ^ 53) by reflexivity. lia.
Qed.
Lemma u32_f64_lane_zero : fadd binary64 Downward (fof_int binary64 Downward (0 - 2 ^ 31)) (fof_int binary64 ToNearest two31) = 2 ^ 63.
Proof. vm_compute. reflexivity. Qed.

(* integers as floats, truncated *)
Lemma fto_int_int f t x j : fmt_ok f -> fval f x = Some (j * one f) ->
  fto_int f t x = if isg t then if (- 2 ^ (iw t - 1) <=? j) && (j <? 2 ^ (iw t - 1)) then Some j else None
                  else if (0 <=? j) && (j <? 2 ^ iw t) then Some j else None.
Proof.
  intros Hf V. pose proof (one_pos f Hf) as ONE. unfold fval in V. unfold fto_int.
  destruct (decode f x) as [|?|s m]; try discriminate. inversion V as [E].
  assert (X : num s (m / one f) = j).
  { destruct s; unfold num in *.
    - replace m with (- j * one f) by lia. rewrite Z.div_mul by lia. lia.
    - subst m. rewrite Z.div_mul by lia. auto. }
  rewrite X. reflexivity.
Qed.
Lemma xor_top a : 0 <= a < 2 ^ 32 -> Z.lxor a (2 ^ 31) = if a <? 2 ^ 31 then a + 2 ^ 31 else a - 2 ^ 31.
Proof.
  intros Ha.
  assert (T : forall b, 0 <= b < 2 ^ 31 -> Z.lxor b (2 ^ 31) = b + 2 ^ 31).
  { intros b Hb. symmetry. apply Z.add_nocarry_lxor. apply Z.bits_inj'; intros n Hn.
    rewrite Z.land_spec, Z.bits_0, Z.pow2_bits_eqb by lia. destruct (Z.eqb_spec 31 n) as [<-|]; [|apply andb_false_r].
    rewrite (testbit_above b 31) by lia. auto. }
  destruct (Z.ltb_spec a (2 ^ 31)); [apply T; lia|].
  replace a with (Z.lxor (a - 2 ^ 31) (2 ^ 31)) at 1 by (rewrite T by lia; lia).
  rewrite Z.lxor_assoc, Z.lxor_nilpotent, Z.lxor_0_r. auto.
Qed.

(* lines with __floor: floor, subtract 2^31, convert to int, flip the top bit *)
Lemma f64_u32_lane ub md x v : pattern binary64 x -> fto_int binary64 (int_ty 4 false) x = Some v ->
  lop_sem ub md (OXor two31) (lop_sem ub md (OTo 8 4 true) (lop_sem ub md (OSub 8 two31) (lop_sem ub md (OFloor 8) x))) = v.
Proof.
  intros Hx E. pose proof b64_ok as Hf. pose proof (one_pos _ Hf) as ONE.
  cbn [lop_sem]. change (fmt_of 8) with binary64.
  assert (FP : 2 ^ fp binary64 = 2 ^ 53) by reflexivity.
  assert (exists k, fval binary64 (fround_to_int binary64 Downward x) = Some (k * one binary64) /\ 0 <= v < 2 ^ 32 /\ (k = v \/ k = -1 /\ v = 0)) as (k & V & Hv & Hk).
  { destruct (instr_value binary64 Downward x Hf Hx) as [P W]. unfold fto_int in E.
    destruct (decode binary64 x) as [|?|s m] eqn:D; try discriminate. cbn [isg iw int_ty] in E.
    destruct (decode_fin _ Hf x s m Hx D) as (a & Ha & Em & _). pose proof (mag_nonneg _ Hf a ltac:(lia)) as Hm. rewrite <- Em in Hm.
    assert (U : 0 <= unit binary64) by (pose proof (unit_pos _ Hf); pose proof (mb_pos _ Hf); lia).
    pose proof (round_int_spec Downward s m (unit binary64) U Hm) as R. cbn [rounded_to] in R. fold (one binary64) in R.
    set (r := round_int Downward s m (unit binary64)) in *. set (o := one binary64) in *.
    change (2 ^ (8 * Z.of_nat 4)) with (2 ^ 32) in E.
    destruct (Z.leb_spec 0 (num s (m / o))); [|discriminate]. destruct (Z.ltb_spec (num s (m / o)) (2 ^ 32)); [|discriminate].
    inversion E as [Ev]. exists (num s r). rewrite W. split; [destruct s; unfold num; f_equal; ring|]. split; [lia|].
    pose proof (Z.div_mod m o ltac:(lia)) as DM. pose proof (Z.mod_pos_bound m o ONE) as DB.
    destruct s; unfold num in *.
    - assert (m / o = 0) by (assert (0 <= m / o) by (apply Z.div_pos; lia); lia). rewrite H1 in *.
      assert (-1 <= - r <= 0) by nia. destruct (Z.eq_dec (- r) 0); [left|right]; lia.
    - left. nia. }
  set (y := fround_to_int binary64 Downward x) in *. clearbody y.
  destruct (fof_int_exact _ Hf ToNearest (2 ^ 31) ltac:(rewrite FP; lia)) as [P2 D2].
  assert (V2 : fval binary64 (fof_int binary64 ToNearest two31) = Some (2 ^ 31 * one binary64)).
  { unfold fval. change two31 with (2 ^ 31). rewrite D2. reflexivity. }
  assert (V3 : fval binary64 (fsub binary64 md y (fof_int binary64 ToNearest two31)) = Some ((k - 2 ^ 31) * one binary64)).
  { rewrite Z.mul_sub_distr_r. apply fsub_exact; auto. rewrite <- Z.mul_sub_distr_r. apply repr_int; auto.
    change (2 * 2 ^ mb binary64) with (2 ^ 53). lia. }
  rewrite (fto_int_int _ _ _ _ Hf V3). cbn [isg iw int_ty]. change (8 * Z.of_nat 4) with 32.
  change (32 - 1) with 31.
  destruct Hk as [->|[-> ->]].
  - replace ((- 2 ^ 31 <=? v - 2 ^ 31) && (v - 2 ^ 31 <? 2 ^ 31)) with true
      by (symmetry; apply andb_true_intro; split; [apply Z.leb_le|apply Z.ltb_lt]; lia).
    unfold pattern_of. change (8 * Z.of_nat 4) with 32. change two31 with (2 ^ 31).
    pose proof (Z.mod_pos_bound (v - 2 ^ 31) (2 ^ 32) ltac:(lia)). rewrite xor_top by lia.
    destruct (Z.lt_ge_cases v (2 ^ 31)).
    + replace ((v - 2 ^ 31) mod 2 ^ 32) with (v + 2 ^ 31)
        by (rewrite <- (Z.mod_add (v - 2 ^ 31) 1) by lia; rewrite Z.mod_small; lia).
      destruct (Z.ltb_spec (v + 2 ^ 31) (2 ^ 31)); lia.
    + rewrite Z.mod_small by lia. destruct (Z.ltb_spec (v - 2 ^ 31) (2 ^ 31)); lia.
  - reflexivity.
Qed.
