(* sin and cos element by element; NaN, signs and zero. *)
From Coq Require Import ZArith List Bool Lia Btauto.
From Verif Require Import Prelude X86Lanes Fixed FloatSpec FloatRoundSpec FloatBits FloatArith FloatRound FloatProofs FloatArithProofs
  FloatRoundProofs ScalarSpec Scalar NarrowSpec Narrow NarrowProofs Hypot SinCos.
Import ListNotations.
Open Scope Z_scope.

Definition b32 := ok32.
Definition b64 := ok64.

(* ------------------------------------------------------------------ *)
(* NaN in, NaN out; signs *)
Section Format.
  Variable f : fmt.
  Hypothesis Hf : fmt_ok f.
  Let N x := decode f x = DNaN.

  Lemma add_nan_l md x y : N x -> N (fadd f md x y).
  Proof. unfold N, fadd. intros ->. apply (decode_nan f Hf). Qed.
  Lemma add_nan_r md x y : N y -> N (fadd f md x y).
  Proof. unfold N, fadd. intros ->. destruct (decode f x); apply (decode_nan f Hf). Qed.
  Lemma mul_nan_l md x y : N x -> N (fmul f md x y).
  Proof. unfold N, fmul. intros ->. apply (decode_nan f Hf). Qed.
  Lemma mul_nan_r md x y : N y -> N (fmul f md x y).
  Proof. unfold N, fmul. intros ->. destruct (decode f x); apply (decode_nan f Hf). Qed.
  Lemma neg_nan x : pattern f x -> N x -> N (fneg f x).
  Proof. unfold N. intros P E. rewrite (decode_neg f Hf x P), E. auto. Qed.
  Lemma fma_nan_l md x y z : N x -> N (ffma f md x y z).
  Proof. intros E. unfold ffma. pose proof E as E'. unfold N in E'. rewrite E'. apply add_nan_l, mul_nan_l; auto. Qed.
  Lemma fma_nan_m md x y z : N y -> N (ffma f md x y z).
  Proof.
    intros E. unfold ffma. pose proof E as E'. unfold N in E'. rewrite E'.
    destruct (decode f x); apply add_nan_l, mul_nan_r; auto.
  Qed.
  Lemma fma_nan_r md x y z : N z -> N (ffma f md x y z).
  Proof.
    intros E. unfold ffma. pose proof E as E'. unfold N in E'.
    destruct (decode f x); try (apply add_nan_r; exact E).
    destruct (decode f y); try (apply add_nan_r; exact E). rewrite E'. apply add_nan_l; auto.
  Qed.

  Lemma mul_pattern md x y : pattern f (fmul f md x y).
  Proof.
    pose proof (inf_lt f Hf). pose proof (inf_pos f Hf). pose proof (pattern_nan f Hf). unfold fmul.
    pose proof (HuM f Hf).
    destruct (decode f x), (decode f y); auto; try (apply (with_sign_pattern f Hf); lia); try (apply (fround_pattern f Hf); lia).
    all: destruct (_ =? 0); auto; apply (with_sign_pattern f Hf); lia.
  Qed.
  Lemma fma_pattern md x y z : pattern f (ffma f md x y z).
  Proof.
    pose proof (HuM f Hf). unfold ffma. destruct (decode f x), (decode f y), (decode f z); try apply (fadd_pattern f Hf).
    apply (fround_pattern f Hf); lia.
  Qed.
  Lemma muladd_pattern c md x y z : pattern f (mul_add c f md x y z).
  Proof. unfold mul_add. destruct c; [apply fma_pattern|apply (fadd_pattern f Hf)]. Qed.
  Lemma mulsub_pattern c md x y z : pattern f (mul_sub c f md x y z).
  Proof. unfold mul_sub. destruct c; [apply fma_pattern|apply (fsub_pattern f Hf)]. Qed.
  Lemma submul_pattern c md x y z : pattern f (sub_mul c f md x y z).
  Proof. unfold sub_mul. destruct c; [apply fma_pattern|apply (fsub_pattern f Hf)]. Qed.
  Lemma muladd_nan_m c md x y z : N y -> N (mul_add c f md x y z).
  Proof. intros. unfold mul_add. destruct c; [apply fma_nan_m; auto|]. apply add_nan_l, mul_nan_r; auto. Qed.
  Lemma muladd_nan_r c md x y z : N z -> N (mul_add c f md x y z).
  Proof. intros. unfold mul_add. destruct c; [apply fma_nan_r; auto|]. apply add_nan_r; auto. Qed.
  Lemma submul_nan_l c md x y z : N x -> N (sub_mul c f md x y z).
  Proof. intros. unfold sub_mul. destruct c; [apply fma_nan_r; auto|]. apply add_nan_l; auto. Qed.

  (* signs *)
  Lemma signmask_ws : signmask f = with_sign f true 0.
  Proof. rewrite (signmask_val f Hf). unfold with_sign. lia. Qed.
  Lemma xor_signs a b : Z.lxor (with_sign f a 0) (with_sign f b 0) = with_sign f (xorb a b) 0.
  Proof. destruct a, b; unfold with_sign; rewrite ?Z.lxor_nilpotent, ?Z.lxor_0_r, ?Z.lxor_0_l; auto. Qed.
  Lemma xor_sign s r : Z.lxor (with_sign f s 0) r = if s then fneg f r else r.
  Proof.
    destruct s.
    - rewrite <- signmask_ws. unfold fneg. apply Z.lxor_comm.
    - unfold with_sign. apply Z.lxor_0_l.
  Qed.
  Lemma land_lxor a b m : Z.land (Z.lxor a b) m = Z.lxor (Z.land m a) (Z.land m b).
  Proof. apply Z.bits_inj'. intros n _. rewrite Z.land_spec, !Z.lxor_spec, !Z.land_spec. btauto. Qed.
  Lemma neg_neg x : fneg f (fneg f x) = x.
  Proof. unfold fneg. rewrite Z.lxor_assoc, Z.lxor_nilpotent, Z.lxor_0_r. auto. Qed.

  Lemma fof_pattern md v : pattern f (fof_int f md v).
  Proof. apply (fround_pattern f Hf). lia. Qed.
  Lemma fof_sign md v : sign_of f (fof_int f md v) = (v <? 0).
  Proof.
    unfold fof_int, fround. assert (P : 0 < 2 ^ unit f) by apply (one_pos f Hf).
    pose proof (inf_lt f Hf). pose proof (inf_pos f Hf).
    destruct (Z.eqb_spec (v * 2 ^ unit f) 0) as [E|E].
    - rewrite (sign_with_sign f) by lia. assert (v = 0) by nia. subst. auto.
    - rewrite (sign_with_sign f).
      + destruct (Z.ltb_spec (v * 2 ^ unit f) 0), (Z.ltb_spec v 0); auto; nia.
      + pose proof (round_bits_range f Hf md (v * 2 ^ unit f <? 0) 0 (Z.abs (v * 2 ^ unit f)) ltac:(lia) ltac:(lia)). lia.
  Qed.
  Lemma sin_sign_val md x q : pattern f x -> sin_sign f md x q = with_sign f (xorb (sign_of f x) (1 - q <? 0)) 0.
  Proof.
    intros P. unfold sin_sign. rewrite land_lxor, !(land_signmask f Hf) by (auto; apply fof_pattern).
    rewrite fof_sign. apply xor_signs.
  Qed.
  Lemma cos_sign_val md q : 0 <= q < 4 -> cos_sign f md q = with_sign f ((q =? 1) || (q =? 2)) 0.
  Proof.
    intros H. unfold cos_sign. rewrite (land_signmask f Hf) by apply fof_pattern. rewrite fof_sign.
    assert (Q : q = 0 \/ q = 1 \/ q = 2 \/ q = 3) by lia. destruct Q as [->|[->|[->| ->]]]; reflexivity.
  Qed.
  Lemma decode_xor s r : pattern f r -> decode f (Z.lxor (with_sign f s 0) r) =
    match decode f r with DNaN => DNaN | DInf t => DInf (xorb s t) | DFin t m => DFin (xorb s t) m end.
  Proof.
    intros P. rewrite xor_sign. destruct s.
    - rewrite (decode_neg f Hf r P). destruct (decode f r); auto.
    - destruct (decode f r) as [|[]|[]]; auto.
  Qed.

  (* the magnitude *)
  Lemma fabs_neg x : pattern f x -> fabs_lane f (fneg f x) = fabs_lane f x.
  Proof.
    intros P. rewrite !(fabs_val f Hf), (fneg_val f Hf x P), (mag_with_sign f); auto. apply (mag_bits_bound f Hf).
  Qed.
  Lemma fabs_abs x : fabs_lane f (fabs_lane f x) = fabs_lane f x.
  Proof. rewrite !(fabs_val f Hf). apply (mag_bits_small f). apply (mag_bits_bound f Hf). Qed.
  Lemma fabs_pattern x : pattern f (fabs_lane f x).
  Proof. rewrite (fabs_val f Hf). apply (pattern_mag f Hf). Qed.
  Lemma decode_fabs x : decode f (fabs_lane f x) =
    match decode f x with DNaN => DNaN | DInf _ => DInf false | DFin _ m => DFin false m end.
  Proof.
    rewrite (fabs_val f Hf). pose proof (mag_bits_bound f Hf x) as B.
    rewrite !(decode_split f Hf), (sign_of_mag f), (mag_bits_small f) by auto. unfold decode_mag.
    destruct (_ <? _); auto. destruct (_ =? _); auto.
  Qed.
  Lemma neg_sign x : pattern f x -> sign_of f (fneg f x) = negb (sign_of f x).
  Proof. intros P. rewrite (fneg_val f Hf x P), (sign_with_sign f); auto. apply (mag_bits_bound f Hf). Qed.
  Lemma not_lt_fin x c m : decode f c = DFin false m -> flt f x c = true -> exists s k, decode f x = DFin s k \/ decode f x = DInf true.
  Proof.
    intros C. unfold flt, cmp, compare_lanes. rewrite C. destruct (decode f x) as [|[]|s k]; cbn [ieee_compare]; try discriminate; eauto.
    Unshelve. all: exact true || exact 0.
  Qed.
End Format.

(* ------------------------------------------------------------------ *)
(* the selection treats every element on its own *)
Definition cos_lane (f : fmt) (md : rmode) (sin_s cos_s : Z -> Z) (p : Z * Z) : Z :=
  Z.lxor (cos_sign f md (snd p)) (if Z.land (snd p) 1 =? 0 then cos_s (fst p) else sin_s (fst p)).
Definition sin_lane (f : fmt) (md : rmode) (sin_s cos_s : Z -> Z) (x : Z) (p : Z * Z) : Z :=
  Z.lxor (sin_sign f md x (snd p)) (if Z.land (snd p) 1 =? 0 then sin_s (fst p) else cos_s (fst p)).
Lemma not_exists {A} (p : A -> bool) l x : existsb p l = false -> In x l -> p x = false.
Proof.
  intros E I. destruct (p x) eqn:X; auto. assert (existsb p l = true) by (apply existsb_exists; eauto). congruence.
Qed.
Lemma cos_select_lanes f md S C l : cos_select f md S C l = map (cos_lane f md S C) l.
Proof.
  unfold cos_select. cbv zeta. destruct (forallb _ l) eqn:A.
  - rewrite forallb_forall in A. apply map_ext_in. intros p I. unfold cos_lane. rewrite (A p I). auto.
  - destruct (existsb _ l) eqn:E; cbn [negb].
    + apply map_ext. intros p. apply Z.lxor_comm.
    + apply map_ext_in. intros p I. unfold cos_lane. rewrite (not_exists _ l p E I). auto.
Qed.
Lemma sin_select_lanes f md S C (g : Z -> Z * Z) xs :
  sin_select f md S C (combine xs (map g xs)) = map (fun x => sin_lane f md S C x (g x)) xs.
Proof.
  assert (E : combine xs (map g xs) = map (fun x => (x, g x)) xs) by (induction xs; cbn; congruence).
  rewrite E. clear E. set (l := map (fun x => (x, g x)) xs).
  transitivity (map (fun p : Z * (Z * Z) => sin_lane f md S C (fst p) (snd p)) l); [|unfold l; rewrite map_map; auto].
  unfold sin_select. cbv zeta. destruct (forallb _ l) eqn:A.
  - rewrite forallb_forall in A. apply map_ext_in. intros p I. unfold sin_lane. rewrite (A p I). auto.
  - destruct (existsb _ l) eqn:E; cbn [negb].
    + apply map_ext. intros p. auto.
    + apply map_ext_in. intros p I. unfold sin_lane. rewrite (not_exists _ l p E I). auto.
Qed.
