(* Lemmas behind PropsLdexp.v: ldexp undoes frexp, and the arithmetic of the model is
   correctly rounded. *)
From Coq Require Import ZArith List Bool Lia.
From Verif Require Import Prelude X86Lanes FloatSpec FloatRoundSpec FloatBits FloatArith FloatProofs FloatArithProofs FloatRound FloatRoundProofs FloatRoundTop FloatMathSpec FloatTop FloatMath FloatFrexp FloatMathTop Ldexp LdexpSpec LdexpProofs.
Import ListNotations.
Local Open Scope Z_scope.

Lemma mant_pattern f x : real_fmt f -> pattern f x -> pattern f (mant_bits f x).
Proof.
  intros Hr Hx. pose proof (real_ok f Hr) as Hf. rewrite (mant_bits_val f Hr x Hx). apply (with_sign_pattern f Hf).
  pose proof (Z.mod_pos_bound (mag_bits f x) (2 ^ mb f) ltac:(apply Z.pow_pos_nonneg; [lia|pose proof (mb_pos f Hf); lia])).
  destruct Hr as [-> | ->];
    [change ((bias binary32 - 1) * 2 ^ mb binary32) with 1056964608; change (2 ^ (fw binary32 - 1)) with 2147483648; change (2 ^ mb binary32) with 8388608 in *
    |change ((bias binary64 - 1) * 2 ^ mb binary64) with 4602678819172646912; change (2 ^ (fw binary64 - 1)) with 9223372036854775808; change (2 ^ mb binary64) with 4503599627370496 in *]; lia.
Qed.
Lemma one_pattern f s : real_fmt f -> pattern f (with_sign f s (one_bits f)).
Proof. intros Hr. apply (with_sign_pattern f (real_ok f Hr)). destruct Hr as [-> | ->]; vm_compute; split; congruence. Qed.
Lemma getmant_pattern f x : real_fmt f -> pattern f x -> pattern f (getmant f x).
Proof.
  intros Hr Hx. pose proof (real_ok f Hr) as Hf. unfold getmant. destruct (decode f x) as [|s|s m] eqn:D.
  - apply (pattern_nan f Hf).
  - apply one_pattern; auto.
  - destruct (Z.eqb_spec m 0); [apply one_pattern; auto|]. apply (with_sign_pattern f Hf).
    destruct (decode_fin f Hf x s m Hx D) as (a & Ha & Em & _).
    pose proof (mag_nonneg f Hf a ltac:(lia)). pose proof (inf_lt f Hf).
    pose proof (round_bits_range f Hf ToZero s (Z.log2 m) (m * 2 ^ (unit f - 1)) (Z.log2_nonneg m)
      ltac:(apply Z.mul_nonneg_nonneg; [lia|apply Z.pow_nonneg; lia])). lia.
Qed.
Lemma frexp_pattern f avx t md x : real_fmt f -> pattern f x -> pattern f (fst (frexp_one f avx t md x)).
Proof.
  intros Hr Hx. unfold frexp_one. destruct avx.
  - unfold frexp_avx512. cbn [fst]. destruct (isnonzerovalue t f md x); [apply getmant_pattern; auto|auto].
  - unfold frexp_slow. cbn [fst]. destruct (_ || _); auto. destruct (negb _); apply mant_pattern; auto. apply fmul_pattern; auto.
Qed.
Lemma extract_range f x : real_fmt f -> pattern f x -> 0 <= extract_exponent f x < 2048.
Proof.
  intros Hr Hx. pose proof (real_ok f Hr) as Hf. rewrite (extract_val f Hr x Hx). pose proof (mag_bits_bound f Hf x) as HB.
  destruct Hr as [-> | ->]; split; try (apply Z.div_pos; [lia|reflexivity]); apply Z.div_lt_upper_bound; try reflexivity;
    [change (2 ^ (fw binary32 - 1)) with 2147483648 in HB; change (2 ^ mb binary32) with 8388608
    |change (2 ^ (fw binary64 - 1)) with 9223372036854775808 in HB; change (2 ^ mb binary64) with 4503599627370496]; lia.
Qed.
Lemma offset_range f a b : real_fmt f ->
  0 <= Z.lor (Z.land (imask a) (exp_adjust f)) (Z.land (imask b) (exp_adjust f + exp_offset f)) < 4096.
Proof. intros [-> | ->]; destruct a, b; vm_compute; split; congruence. Qed.
Lemma frexp_int f avx t md x : real_fmt f -> pattern f x -> - 2 ^ 31 <= snd (frexp_one f avx t md x) < 2 ^ 31.
Proof.
  intros Hr Hx. unfold frexp_one. destruct avx.
  - unfold frexp_avx512. cbn [snd]. destruct (isnonzerovalue t f md x); [|lia]. unfold sgn, uns. change (2 ^ (32 - 1)) with (2 ^ 31).
    pose proof (Z.mod_pos_bound (1 + cvt_int f (getexp f md x)) (2 ^ 32) ltac:(reflexivity)).
    destruct (Z.ltb_spec ((1 + cvt_int f (getexp f md x)) mod 2 ^ 32) (2 ^ 31)); lia.
  - unfold frexp_slow. cbn [snd].
    match goal with |- context [Z.lor (Z.land (imask ?a) _) (Z.land (imask ?b) _)] => pose proof (offset_range f a b Hr) end.
    pose proof (extract_range f x Hr Hx). pose proof (extract_range f (fmul f md x (subnorm_scale f)) Hr (fmul_pattern f Hr md x _)).
    set (o := Z.lor _ _) in *. destruct (match isnormal_lane t f x with Some b => b | None => false end); lia.
Qed.
(* simd_math.h: auto y = frexp(x, &e); ldexp(y, e) *)
Lemma frexp_ldexp_core avx t f md md' n xs : real_fmt f -> (avx = false -> target_ok t /\ dq_ok t) -> Forall (pattern f) xs -> (n <= length xs)%nat ->
  exists rs, frexp_reg avx t f md xs = Some rs /\
    forall i x, (i < n)%nat -> nth_error xs i = Some x ->
      exists y, nth_error (ldexp_reg f md' n (map fst rs) (map snd rs)) i = Some y /\ decode f y = decode f x /\ (decode f x <> DNaN -> y = x).
Proof.
  intros Hr HT HP Hn. destruct (c34_frexp avx t f md xs Hr HT HP) as (rs & E & L & R). exists rs. split; auto.
  destruct (frexp_vector f Hr avx t md xs rs HP E) as [-> _]. rewrite !map_map in *.
  intros i x Hi Hx. destruct (R i x Hx) as (y & e & Hye & FR & _).
  rewrite (map_nth_error _ _ _ Hx) in Hye. injection Hye as Hye.
  assert (Px : pattern f x) by (rewrite Forall_forall in HP; apply HP; eapply nth_error_In; eauto).
  pose proof (frexp_pattern f avx t md x Hr Px) as Py. pose proof (frexp_int f avx t md x Hr Px) as Ie. rewrite Hye in Py, Ie. cbn [fst snd] in Py, Ie.
  exists (ldexp_lane f md' y e). split; [|apply ldexp_frexp; auto].
  unfold ldexp_reg. rewrite map_length.
  assert (Li : (i < length xs)%nat) by (apply nth_error_Some; congruence).
  assert (Q : nth_error (combine (seq 0 (length xs)) (combine (map (fun x => fst (frexp_one f avx t md x)) xs) (map (fun x => snd (frexp_one f avx t md x)) xs))) i = Some (i, (y, e))).
  { rewrite (nth_error_nth' _ (0%nat, (0, 0))) by (rewrite !combine_length, !map_length, seq_length; lia).
    rewrite !combine_nth by (rewrite ?combine_length, ?map_length, ?seq_length; lia). rewrite seq_nth by lia.
    rewrite (nth_error_nth _ _ 0 (map_nth_error _ _ _ Hx)), (nth_error_nth _ _ 0 (map_nth_error _ _ _ Hx)), Hye. reflexivity. }
  rewrite (map_nth_error _ _ _ Q). cbn [fst snd]. destruct (Nat.ltb_spec i n); [reflexivity|lia].
Qed.

(* sums, differences, products and conversions *)
Lemma sum_correct f md x y a m b n : fmt_ok f -> decode f x = DFin a m -> decode f y = DFin b n -> num a m + num b n <> 0 ->
  correctly_rounded f md (num a m + num b n <? 0) (Z.abs (num a m + num b n)) 1 (decode f (fadd f md x y)).
Proof.
  intros Hf Dx Dy N. unfold fadd. rewrite Dx, Dy. set (v := num a m + num b n) in *.
  pose proof (fround_correct f Hf md (v <? 0) (Z.abs v) 0 ltac:(lia) ltac:(lia)) as C.
  replace (num (v <? 0) (Z.abs v)) with v in C by (destruct (Z.ltb_spec v 0); cbn [num]; lia).
  change (2 ^ 0) with 1 in C. unfold fround in *. destruct (Z.eqb_spec v 0); [contradiction|]. exact C.
Qed.
Lemma product_correct f md x y a m b n : fmt_ok f -> pattern f x -> pattern f y -> decode f x = DFin a m -> decode f y = DFin b n ->
  correctly_rounded f md (xorb a b) (m * n) (one f) (decode f (fmul f md x y)).
Proof.
  intros Hf Px Py Dx Dy. unfold fmul. rewrite Dx, Dy.
  destruct (decode_fin f Hf x a m Px Dx) as (p & Hp & Em & _). destruct (decode_fin f Hf y b n Py Dy) as (q & Hq & En & _).
  pose proof (mag_nonneg f Hf p ltac:(lia)). pose proof (mag_nonneg f Hf q ltac:(lia)).
  replace (num a m * num b n) with (num (xorb a b) (m * n)) by (destruct a, b; cbn [num xorb]; ring).
  change (one f) with (2 ^ unit f). apply (fround_correct f Hf); [pose proof (unit_pos f Hf); pose proof (mb_pos f Hf); lia|nia].
Qed.

(* the correctly rounded result is unique *)
Lemma nearest_unique f u v x n x' n' : fmt_ok f -> 0 < u -> number_at f x n -> number_at f x' n' -> n < n' ->
  Z.even x = true -> Z.even x' = true -> Z.abs (n * u - v) = Z.abs (n' * u - v) ->
  (forall k, finite_number f k -> Z.abs (n * u - v) <= Z.abs (k * u - v)) -> False.
Proof.
  intros Hf Hu N N' L E E' A K. destruct (number_inv f Hf x n N) as [Hx Ex]. destruct (number_inv f Hf x' n' N') as [Hx' Ex'].
  assert (LX : x < x').
  { destruct (Z.lt_ge_cases x x') as [|G]; auto. pose proof (mag_le f Hf x' x ltac:(lia)). lia. }
  assert (x + 1 <> x').
  { intros <-. rewrite Z.even_add, E in E'. discriminate. }
  assert (M1 : n < mag f (x + 1)) by (rewrite Ex; apply (mag_mono f Hf); lia).
  assert (M2 : mag f (x + 1) < n') by (rewrite Ex'; apply (mag_mono f Hf); lia).
  specialize (K (mag f (x + 1)) (ex_intro _ (x + 1) (number_mag f Hf (x + 1) ltac:(lia)))).
  set (k := mag f (x + 1)) in *. clear - Hu A K M1 M2.
  assert (n * u < k * u) by (apply Z.mul_lt_mono_pos_r; auto). assert (k * u < n' * u) by (apply Z.mul_lt_mono_pos_r; auto). lia.
Qed.
Lemma rounded_unique f md s v u y z : fmt_ok f -> 0 <= v -> 0 < u ->
  correctly_rounded f md s v u y -> correctly_rounded f md s v u z -> y = z.
Proof.
  intros Hf Hv Hu. assert (FL : forall x n, number_at f x n -> n <= largest f).
  { intros x n N. destruct (number_inv f Hf x n N) as [Hx ->]. rewrite (largest_mag f Hf). apply (mag_le f Hf); lia. }
  destruct y as [|s1|s1 n1], z as [|s2|s2 n2]; cbn [correctly_rounded]; try contradiction; intros [-> A] [-> B]; auto.
  - exfalso. destruct B as (x & N & B). pose proof (FL x n2 N). destruct (direction_of md s); [contradiction| |].
    + destruct B as [B _]. assert (n2 * u <= largest f * u) by (apply Z.mul_le_mono_nonneg_r; lia). lia.
    + destruct B as [B _]. lia.
  - exfalso. destruct A as (x & N & A). pose proof (FL x n1 N). destruct (direction_of md s); [contradiction| |].
    + destruct A as [A _]. assert (n1 * u <= largest f * u) by (apply Z.mul_le_mono_nonneg_r; lia). lia.
    + destruct A as [A _]. lia.
  - f_equal. destruct A as (x & N & A). destruct B as (x' & N' & B).
    assert (F : finite_number f n1) by (exists x; auto). assert (F' : finite_number f n2) by (exists x'; auto).
    destruct (direction_of md s); destruct A as [A1 A2], B as [B1 B2].
    + pose proof (A2 n2 F' B1). pose proof (B2 n1 F A1). lia.
    + pose proof (A2 n2 F' B1). pose proof (B2 n1 F A1). lia.
    + destruct (A2 n2 F') as [A3 A4]. destruct (B2 n1 F) as [B3 B4]. destruct (Z.eq_dec n1 n2) as [|NE]; auto. exfalso.
      assert (EQ : Z.abs (n1 * u - v) = Z.abs (n2 * u - v)) by lia.
      specialize (A4 ltac:(lia) EQ). specialize (B4 ltac:(lia) ltac:(lia)).
      destruct (Z.lt_ge_cases n1 n2).
      * apply (nearest_unique f u v x n1 x' n2); auto. intros k K. apply (A2 k K).
      * apply (nearest_unique f u v x' n2 x n1); auto; [lia|]. intros k K. apply (B2 k K).
Qed.
