(* Where expressions: the theorems of PropsWhere.v. *)
From Coq Require Import ZArith Bool Lia Arith List.
From Verif Require Import Prelude Fixed MemProofs MaskSpec BitMask KMask KMaskSpec KMaskProofs X86Lanes X86Div ScalarSpec Scalar ScalarProofs FloatFrexp FloatRound FloatProofs FloatArithProofs FloatRoundTop FloatMathProofs FloatLogb Padding FloatSpec FloatBits FloatArith X86Mask X86MaskSpec X86MaskProofs Where WhereSpec WhereProofs.
Import ListNotations.
Local Open Scope Z_scope.

Lemma feq_zero_cases f v : real_fmt f -> pattern f v -> feq f v 0 = true -> v = 0 \/ v = 2 ^ (fw f - 1).
Proof.
  intros Hr Hv H. pose proof (real_ok f Hr) as Hf. change 0 with (zero_bits f) in H. rewrite (feq_zero f Hr v Hv) in H.
  destruct (decode f v) as [|s|s m] eqn:D; try discriminate. apply Z.eqb_eq in H. subst m.
  destruct (decode_fin f Hf v s 0 Hv D) as (a & Ha & Em & ->).
  assert (a = 0).
  { apply (mag_inj f Hf a 0); [lia|lia|]. rewrite <- Em. unfold mag. destruct (Z.ltb_spec 0 (2 ^ mb f)) as [|P]; [reflexivity|].
    pose proof (Z.pow_pos_nonneg 2 (mb f)). unfold fmt_ok, mb in *. lia. }
  subst a. unfold with_sign. destruct s; [right; lia|left; reflexivity].
Qed.
Lemma feq_minus_zero f : real_fmt f -> feq f (2 ^ (fw f - 1)) 0 = true.
Proof.
  intros Hr. pose proof (real_ok f Hr) as Hf. change 0 with (zero_bits f).
  assert (P : pattern f (2 ^ (fw f - 1))).
  { unfold pattern. rewrite (pow_fw f Hf). pose proof (Z.pow_pos_nonneg 2 (fw f - 1)). unfold fmt_ok, eb in *. lia. }
  rewrite (feq_zero f Hr _ P).
  replace (2 ^ (fw f - 1)) with (with_sign f true 0) by (unfold with_sign; lia).
  rewrite (decode_with_sign f Hf) by (pose proof (inf_pos f Hf); lia).
  apply Z.eqb_eq. unfold mag. destruct (Z.ltb_spec 0 (2 ^ mb f)) as [|Q]; [reflexivity|].
  pose proof (Z.pow_pos_nonneg 2 (mb f)). unfold fmt_ok, mb in *. lia.
Qed.

Lemma andnot_replaced s m l lhs : where_shape s -> holds s m l -> register s lhs ->
  replaced (sn s) l lhs (repeat 0 (st s)) (map2 (fun k a => Z.land (Z.lnot k) a) m lhs).
Proof.
  intros [Hz Hn] (Hm & Hl & He & _) [Ha Ra] i Hi.
  rewrite (map2_nth _ _ _ i 0 0) by lia. rewrite (He i Hi), nth_repeat.
  specialize (Ra i ltac:(lia)). destruct (nth i l false).
  - apply land_lnot_ones; [lia|auto].
  - change (Z.lnot 0) with (-1). apply Z.land_m1_l.
Qed.

Lemma zeros_register s : where_shape s -> register s (repeat 0 (st s)).
Proof.
  intros [Hz Hn]. split; [apply repeat_length|]. intros i Hi. rewrite nth_repeat. split; [lia|]. apply Z.pow_pos_nonneg; lia.
Qed.

(* where(k, v) = scalar: also which number is assigned *)
Lemma assign_scalar_core y c t s k l lhs v : where_shape s -> style_ok y s -> means s k l -> register s lhs ->
  0 <= v < 2 ^ (8 * Z.of_nat (sz s)) -> kn_rhs c && equals_zero t v = false \/ v = 0 ->
  replaced (sn s) l lhs (repeat v (sn s)) (masked_assign_scalar y c t s k lhs v).
Proof.
  intros Hs Hy Hk Ha Hv Hq.
  assert (R : forall res, replaced (sn s) l lhs (vbroadcast s v) res -> replaced (sn s) l lhs (repeat v (sn s)) res).
  { intros res H i Hi. rewrite (H i Hi). rewrite vbroadcast_nth by auto.
    rewrite (nth_indep (repeat v (sn s)) 0 v) by (rewrite repeat_length; lia). rewrite nth_repeat. reflexivity. }
  pose proof (vbroadcast_register s v Hs Hv) as Hb.
  unfold masked_assign_scalar.
  destruct (constprop_none_of (kn_mask c) s k) eqn:E0.
  { intros i Hi. rewrite (known_none _ s k l i Hs Hk E0 Hi). reflexivity. }
  destruct (constprop_all_of (kn_mask c) s k) eqn:E1.
  { apply R. intros i Hi. rewrite (known_all _ s k l i Hs Hk E1 Hi). reflexivity. }
  destruct (kn_rhs c && equals_zero t v)%bool eqn:Z0.
  - destruct Hq as [?|Hq]; [discriminate|]. subst v.
    assert (R0 : forall res, replaced (sn s) l lhs (repeat 0 (st s)) res -> replaced (sn s) l lhs (repeat 0 (sn s)) res).
    { intros res H i Hi. rewrite (H i Hi), !nth_repeat. reflexivity. }
    apply R0. destruct k as [m|w].
    + apply andnot_replaced; auto.
    + apply blend_ok; auto. apply zeros_register; auto.
  - apply R. apply blend_ok; auto.
Qed.

Lemma assign_scalar_int y c sg s k l lhs v : where_shape s -> style_ok y s -> means s k l -> register s lhs ->
  0 <= v < 2 ^ (8 * Z.of_nat (sz s)) ->
  replaced (sn s) l lhs (repeat v (sn s)) (masked_assign_scalar y c (EInt sg) s k lhs v).
Proof.
  intros. apply assign_scalar_core; auto. cbn [equals_zero]. destruct (Z.eqb_spec v 0); [auto|]. left. apply andb_false_r.
Qed.
Lemma assign_scalar_float y c f s k l lhs v : real_fmt f -> fw f = 8 * Z.of_nat (sz s) ->
  where_shape s -> style_ok y s -> means s k l -> register s lhs -> pattern f v ->
  (kn_rhs c = true -> v <> 2 ^ (fw f - 1)) ->
  replaced (sn s) l lhs (repeat v (sn s)) (masked_assign_scalar y c (EFloat f) s k lhs v).
Proof.
  intros Hf Hw Hs Hy Hk Ha Hv Hq. apply assign_scalar_core; auto.
  - rewrite <- Hw. exact Hv.
  - destruct (kn_rhs c) eqn:E; [|auto]. cbn [andb equals_zero]. destruct (feq f v 0) eqn:E2; [|auto].
    destruct (feq_zero_cases f v Hf Hv E2) as [?|?]; [auto|]. elim (Hq eq_refl); auto.
Qed.
Lemma assign_minus_zero y c f s k l lhs : real_fmt f -> fw f = 8 * Z.of_nat (sz s) ->
  where_shape s -> style_ok y s -> means s k l -> register s lhs ->
  kn_mask c = false -> kn_rhs c = true ->
  forall i, (i < sn s)%nat -> nth i l false = true ->
    nth i (masked_assign_scalar y c (EFloat f) s k lhs (2 ^ (fw f - 1))) 0 = 0.
Proof.
  intros Hf Hw Hs Hy Hk Ha Hm Hr i Hi Hl. unfold masked_assign_scalar, constprop_none_of, constprop_all_of.
  rewrite Hm, Hr. cbn [andb equals_zero]. rewrite (feq_minus_zero f Hf).
  destruct k as [m|w].
  - rewrite (andnot_replaced s m l lhs Hs Hk Ha i Hi), Hl. apply nth_repeat.
  - rewrite (blend_ok y (kn_blend c) s (BMask w) l lhs (repeat 0 (st s)) Hs Hy Hk Ha (zeros_register s Hs) i Hi), Hl. apply nth_repeat.
Qed.

(* compound assignment *)
Lemma cassign_core op y c s k l lhs rhs r0 : where_shape s -> style_ok y s -> means s k l -> register s lhs -> register s r0 ->
  op lhs rhs = Some r0 ->
  exists r, masked_cassign op y c s k lhs rhs = Some r /\ replaced (sn s) l lhs r0 r.
Proof.
  intros Hs Hy Hk Ha Hb E. unfold masked_cassign.
  destruct (constprop_none_of (kn_mask c) s k) eqn:E0.
  { exists lhs. split; [reflexivity|]. intros i Hi. rewrite (known_none _ s k l i Hs Hk E0 Hi). reflexivity. }
  rewrite E. eexists. split; [reflexivity|].
  destruct (constprop_all_of (kn_mask c) s k) eqn:E1.
  { intros i Hi. rewrite (known_all _ s k l i Hs Hk E1 Hi). reflexivity. }
  apply blend_ok; auto.
Qed.
Lemma unary_core op y c s k l v r0 : where_shape s -> style_ok y s -> means s k l -> register s v -> register s r0 ->
  op v = Some r0 ->
  exists r, masked_unary op y c s k v = Some r /\ replaced (sn s) l v r0 r.
Proof.
  intros Hs Hy Hk Ha Hb E. unfold masked_unary.
  destruct (constprop_none_of (kn_mask c) s k) eqn:E0.
  { exists v. split; [reflexivity|]. intros i Hi. rewrite (known_none _ s k l i Hs Hk E0 Hi). reflexivity. }
  rewrite E. eexists. split; [reflexivity|].
  destruct (constprop_all_of (kn_mask c) s k) eqn:E1.
  { intros i Hi. rewrite (known_all _ s k l i Hs Hk E1 Hi). reflexivity. }
  apply blend_ok; auto.
Qed.

Lemma lanewise2_spec f x y : length x = length y -> (forall i, (i < length x)%nat -> f (nth i x 0) (nth i y 0) <> None) ->
  exists r, lanewise2 f x y = Some r /\ length r = length x /\
    forall i, (i < length x)%nat -> f (nth i x 0) (nth i y 0) = Some (nth i r 0).
Proof.
  intros Hl H. unfold lanewise2.
  destruct (omapm_spec (fun p => f (fst p) (snd p)) (combine x y)) as (r & E & L & N).
  - intros p Hp. destruct (In_nth _ _ (0, 0) Hp) as (i & Hi & <-). rewrite combine_length in Hi.
    rewrite combine_nth by auto. cbn [fst snd]. apply H. lia.
  - exists r. split; [exact E|]. rewrite combine_length in L. split; [lia|]. intros i Hi.
    assert (Q : nth_error (combine x y) i = Some (nth i x 0, nth i y 0)).
    { rewrite <- combine_nth by auto. apply nth_error_nth'. rewrite combine_length. lia. }
    specialize (N i _ Q). cbn [fst snd] in N. rewrite <- N. apply nth_error_nth'. lia.
Qed.
Lemma lanewise1_spec f x : (forall i, (i < length x)%nat -> f (nth i x 0) <> None) ->
  exists r, lanewise1 f x = Some r /\ length r = length x /\
    forall i, (i < length x)%nat -> f (nth i x 0) = Some (nth i r 0).
Proof.
  intros H. unfold lanewise1. destruct (omapm_spec f x) as (r & E & L & N).
  - intros p Hp. destruct (In_nth _ _ 0 Hp) as (i & Hi & <-). auto.
  - exists r. split; [exact E|]. split; [exact L|]. intros i Hi.
    rewrite <- (N i _ (nth_error_nth' x 0 Hi)). apply nth_error_nth'. lia.
Qed.

Lemma int_result_spec sg w v : 1 <= w -> no_overflow sg w v -> exists r, int_result sg w v = Some r /\ result_of sg w v r.
Proof.
  intros Hw H. unfold int_result.
  assert (P : 0 < 2 ^ (w - 1)) by (apply Z.pow_pos_nonneg; lia).
  assert (Q : 2 ^ w = 2 * 2 ^ (w - 1)) by (rewrite <- Z.pow_succ_r by lia; f_equal; lia).
  assert (B : (sg && ((v <? - 2 ^ (w - 1)) || (2 ^ (w - 1) <=? v)))%bool = false).
  { destruct sg; [|reflexivity]. specialize (H eq_refl). cbn [andb].
    destruct (Z.ltb_spec v (- 2 ^ (w - 1))), (Z.leb_spec (2 ^ (w - 1)) v); auto; lia. }
  rewrite B. eexists. split; [reflexivity|]. unfold result_of, uns.
  pose proof (Z.mod_pos_bound v (2 ^ w) ltac:(lia)) as M. split; [exact M|]. unfold number. destruct sg; [|reflexivity].
  specialize (H eq_refl). destruct (Z.lt_ge_cases v 0).
  - assert (E : v mod 2 ^ w = v + 2 ^ w) by (symmetry; apply Z.mod_unique with (q := -1); lia).
    rewrite E. destruct (Z.ltb_spec (v + 2 ^ w) (2 ^ (w - 1))); lia.
  - rewrite Z.mod_small by lia. destruct (Z.ltb_spec v (2 ^ (w - 1))); lia.
Qed.
Lemma value_number sg w x : value sg w x = number sg w x.
Proof. reflexivity. Qed.

Lemma int_compound op y c s sg k l lhs rhs : where_shape s -> style_ok y s -> means s k l -> register s lhs -> register s rhs ->
  let w := 8 * Z.of_nat (sz s) in
  (forall i, (i < st s)%nat -> no_overflow sg w (op (number sg w (nth i lhs 0)) (number sg w (nth i rhs 0)))) ->
  exists r, masked_cassign (lanewise2 (int_lane2 op sg w)) y c s k lhs rhs = Some r /\
    forall i, (i < sn s)%nat ->
      if nth i l false then result_of sg w (op (number sg w (nth i lhs 0)) (number sg w (nth i rhs 0))) (nth i r 0)
      else nth i r 0 = nth i lhs 0.
Proof.
  intros Hs Hy Hk Ha Hb w Ho. destruct Ha as [La Ra], Hb as [Lb Rb]. pose proof Hs as [Hz Hn].
  assert (Hw : 1 <= w) by (unfold w; lia).
  destruct (lanewise2_spec (int_lane2 op sg w) lhs rhs ltac:(lia)) as (r0 & E & L & N).
  { intros i Hi. destruct (int_result_spec sg w _ Hw (Ho i ltac:(lia))) as (r & Er & _).
    unfold int_lane2. change value with number; rewrite Er. discriminate. }
  assert (RS : forall i, (i < st s)%nat -> result_of sg w (op (number sg w (nth i lhs 0)) (number sg w (nth i rhs 0))) (nth i r0 0)).
  { intros i Hi. destruct (int_result_spec sg w _ Hw (Ho i Hi)) as (r & Er & Hr).
    specialize (N i ltac:(lia)). unfold int_lane2 in N. change value with number in N; rewrite Er in N. injection N as <-. exact Hr. }
  destruct (cassign_core (lanewise2 (int_lane2 op sg w)) y c s k l lhs rhs r0 Hs Hy Hk (conj La Ra)) as (r & Er & Hr).
  { split; [lia|]. intros i Hi. apply (RS i Hi). }
  { exact E. }
  exists r. split; [exact Er|]. intros i Hi. rewrite (Hr i Hi). destruct (nth i l false); [apply RS; lia|reflexivity].
Qed.
Lemma int_unary u y c s sg k l v : where_shape s -> style_ok y s -> means s k l -> register s v ->
  let w := 8 * Z.of_nat (sz s) in
  (forall i, (i < st s)%nat -> no_overflow sg w (unary_value u (number sg w (nth i v 0)))) ->
  exists r, masked_unary (lanewise1 (int_lane1 u sg w)) y c s k v = Some r /\
    forall i, (i < sn s)%nat ->
      if nth i l false then result_of sg w (unary_value u (number sg w (nth i v 0))) (nth i r 0)
      else nth i r 0 = nth i v 0.
Proof.
  intros Hs Hy Hk Ha w Ho. destruct Ha as [La Ra]. pose proof Hs as [Hz Hn].
  assert (Hw : 1 <= w) by (unfold w; lia).
  destruct (lanewise1_spec (int_lane1 u sg w) v) as (r0 & E & L & N).
  { intros i Hi. destruct (int_result_spec sg w _ Hw (Ho i ltac:(lia))) as (r & Er & _).
    unfold int_lane1. change value with number; rewrite Er. discriminate. }
  assert (RS : forall i, (i < st s)%nat -> result_of sg w (unary_value u (number sg w (nth i v 0))) (nth i r0 0)).
  { intros i Hi. destruct (int_result_spec sg w _ Hw (Ho i Hi)) as (r & Er & Hr).
    specialize (N i ltac:(lia)). unfold int_lane1 in N. change value with number in N; rewrite Er in N. injection N as <-. exact Hr. }
  destruct (unary_core (lanewise1 (int_lane1 u sg w)) y c s k l v r0 Hs Hy Hk (conj La Ra)) as (r & Er & Hr).
  { split; [lia|]. intros i Hi. apply (RS i Hi). }
  { exact E. }
  exists r. split; [exact Er|]. intros i Hi. rewrite (Hr i Hi). destruct (nth i l false); [apply RS; lia|reflexivity].
Qed.

(* total operations on lanes, such as those on floating-point numbers *)
Lemma total_compound (g : Z -> Z -> Z) y c s k l lhs rhs : where_shape s -> style_ok y s -> means s k l -> register s lhs -> register s rhs ->
  (forall a b, 0 <= a < 2 ^ (8 * Z.of_nat (sz s)) -> 0 <= b < 2 ^ (8 * Z.of_nat (sz s)) -> 0 <= g a b < 2 ^ (8 * Z.of_nat (sz s))) ->
  exists r, masked_cassign (lanewise2 (fun a b => Some (g a b))) y c s k lhs rhs = Some r /\
    forall i, (i < sn s)%nat -> nth i r 0 = if nth i l false then g (nth i lhs 0) (nth i rhs 0) else nth i lhs 0.
Proof.
  intros Hs Hy Hk [La Ra] [Lb Rb] Hg. pose proof Hs as [Hz Hn].
  destruct (lanewise2_spec (fun a b => Some (g a b)) lhs rhs ltac:(lia)) as (r0 & E & L & N); [discriminate|].
  destruct (cassign_core (lanewise2 (fun a b => Some (g a b))) y c s k l lhs rhs r0 Hs Hy Hk (conj La Ra)) as (r & Er & Hr).
  { split; [lia|]. intros i Hi. specialize (N i ltac:(lia)). injection N as <-. apply Hg; [apply Ra|apply Rb]; lia. }
  { exact E. }
  exists r. split; [exact Er|]. intros i Hi. rewrite (Hr i Hi). destruct (nth i l false); [|reflexivity].
  specialize (N i ltac:(lia)). injection N as <-. reflexivity.
Qed.
Lemma total_unary (g : Z -> Z) y c s k l v : where_shape s -> style_ok y s -> means s k l -> register s v ->
  (forall a, 0 <= a < 2 ^ (8 * Z.of_nat (sz s)) -> 0 <= g a < 2 ^ (8 * Z.of_nat (sz s))) ->
  exists r, masked_unary (lanewise1 (fun a => Some (g a))) y c s k v = Some r /\
    forall i, (i < sn s)%nat -> nth i r 0 = if nth i l false then g (nth i v 0) else nth i v 0.
Proof.
  intros Hs Hy Hk [La Ra] Hg. pose proof Hs as [Hz Hn].
  destruct (lanewise1_spec (fun a => Some (g a)) v) as (r0 & E & L & N); [discriminate|].
  destruct (unary_core (lanewise1 (fun a => Some (g a))) y c s k l v r0 Hs Hy Hk (conj La Ra)) as (r & Er & Hr).
  { split; [lia|]. intros i Hi. specialize (N i ltac:(lia)). injection N as <-. apply Hg, Ra; lia. }
  { exact E. }
  exists r. split; [exact Er|]. intros i Hi. rewrite (Hr i Hi). destruct (nth i l false); [|reflexivity].
  specialize (N i ltac:(lia)). injection N as <-. reflexivity.
Qed.

(* overflow in an element that is not selected *)
Lemma omapm_none {A B} (f : A -> option B) l a : In a l -> f a = None -> omapm f l = None.
Proof.
  induction l as [|b l IH]; intros Hi Hf; [contradiction|]. cbn [omapm]. destruct Hi as [->|Hi].
  - rewrite Hf. reflexivity.
  - rewrite (IH Hi Hf). destruct (f b); reflexivity.
Qed.
Lemma unselected_overflow u y c s k l j : where_shape s -> means s k l -> kn_mask c = false -> (j < sn s)%nat -> nth j l false = false ->
  let w := 8 * Z.of_nat (sz s) in
  exists v, register s v /\
    (forall i, (i < sn s)%nat -> nth i l false = true -> no_overflow true w (unary_value u (number true w (nth i v 0)))) /\
    masked_unary (lanewise1 (int_lane1 u true w)) y c s k v = None.
Proof.
  intros [Hz Hn] Hk Hm Hj Hf w.
  assert (P : 2 ^ 7 <= 2 ^ (w - 1)) by (apply Z.pow_le_mono_r; unfold w; lia).
  assert (Q : 2 ^ w = 2 * 2 ^ (w - 1)) by (rewrite <- Z.pow_succ_r by (unfold w; lia); f_equal; lia).
  change (2 ^ 7) with 128 in P.
  set (x := match u with UIncrement => 2 ^ (w - 1) - 1 | _ => 2 ^ (w - 1) end).
  exists (upd (repeat 0 (st s)) j x).
  assert (L : length (upd (repeat 0 (st s)) j x) = st s) by (rewrite upd_length; apply repeat_length).
  assert (X : 0 <= x < 2 ^ w) by (unfold x; destruct u; lia).
  assert (NX : nth j (upd (repeat 0 (st s)) j x) 0 = x) by (apply upd_nth_same; rewrite repeat_length; lia).
  assert (NO : forall i, i <> j -> nth i (upd (repeat 0 (st s)) j x) 0 = 0) by (intros i Hi; rewrite upd_nth_other by auto; apply nth_repeat).
  repeat split.
  - exact L.
  - destruct (Nat.eq_dec i j) as [->|Hd]; [rewrite NX|rewrite NO by auto]; fold w; lia.
  - destruct (Nat.eq_dec i j) as [->|Hd]; [rewrite NX|rewrite NO by auto]; fold w; lia.
  - destruct (Nat.eq_dec i j) as [->|Hd]; [congruence|]. rewrite NO by auto. unfold number.
    destruct (Z.ltb_spec 0 (2 ^ (w - 1))); [|lia]. destruct u; cbn [unary_value]; lia.
  - destruct (Nat.eq_dec i j) as [->|Hd]; [congruence|]. rewrite NO by auto. unfold number.
    destruct (Z.ltb_spec 0 (2 ^ (w - 1))); [|lia]. destruct u; cbn [unary_value]; lia.
  - unfold masked_unary, constprop_none_of. rewrite Hm. cbn [andb]. unfold lanewise1.
    rewrite (omapm_none _ _ x).
    + reflexivity.
    + rewrite <- NX at 1. apply nth_In. lia.
    + unfold int_lane1, int_result. change value with number. cbn [andb].
      assert (V : unary_value u (number true w x) < - 2 ^ (w - 1) \/ 2 ^ (w - 1) <= unary_value u (number true w x)).
      { unfold x, number. destruct u; cbn [unary_value].
        - destruct (Z.ltb_spec (2 ^ (w - 1)) (2 ^ (w - 1))); lia.
        - destruct (Z.ltb_spec (2 ^ (w - 1) - 1) (2 ^ (w - 1))); lia.
        - destruct (Z.ltb_spec (2 ^ (w - 1)) (2 ^ (w - 1))); lia. }
      destruct (Z.ltb_spec (unary_value u (number true w x)) (- 2 ^ (w - 1))); [reflexivity|].
      destruct (Z.leb_spec (2 ^ (w - 1)) (unary_value u (number true w x))); [reflexivity|lia].
Qed.

(* masks *)
Lemma by_signs_range c g : forall k a b, 0 < g -> 0 <= by_signs c g k a b < 2 ^ (g * Z.of_nat c).
Proof.
  induction c as [|c IH]; intros k a b Hg; cbn [by_signs].
  - rewrite Z.mul_0_r. cbn. lia.
  - assert (P : 0 < 2 ^ g) by (apply Z.pow_pos_nonneg; lia).
    specialize (IH (k / 2 ^ g) (a / 2 ^ g) (b / 2 ^ g) Hg). rewrite pow_split by auto.
    pose proof (Z.mod_pos_bound a (2 ^ g) P). pose proof (Z.mod_pos_bound b (2 ^ g) P).
    destruct (Z.testbit k (g - 1)); nia.
Qed.
Lemma in_range_bits w x : 0 <= w -> 0 <= x -> (forall i, w <= i -> Z.testbit x i = false) -> x < 2 ^ w.
Proof.
  intros Hw Hx H. assert (E : x mod 2 ^ w = x).
  { apply Z.bits_inj'. intros i Hi. destruct (Z.lt_ge_cases i w).
    - apply Z.mod_pow2_bits_low. auto.
    - rewrite Z.mod_pow2_bits_high by lia. symmetry. auto. }
  rewrite <- E. apply Z.mod_pos_bound. apply Z.pow_pos_nonneg; lia.
Qed.
Lemma range_bits w x i : 0 <= w -> 0 <= x < 2 ^ w -> w <= i -> Z.testbit x i = false.
Proof. intros Hw Hx Hi. rewrite <- (Z.mod_small x (2 ^ w)) by auto. apply Z.mod_pow2_bits_high. lia. Qed.
Lemma land_lnot_range w k a : 0 <= w -> 0 <= a < 2 ^ w -> 0 <= Z.land (Z.lnot k) a < 2 ^ w.
Proof.
  intros Hw Ha. assert (P : 0 <= Z.land (Z.lnot k) a) by (apply Z.land_nonneg; right; lia).
  split; [exact P|]. apply in_range_bits; auto. intros i Hi. rewrite Z.land_spec, (range_bits w a i) by auto. apply andb_false_r.
Qed.
Lemma land_range w k a : 0 <= w -> 0 <= k < 2 ^ w -> 0 <= a < 2 ^ w -> 0 <= Z.land k a < 2 ^ w.
Proof.
  intros Hw Hk Ha. assert (P : 0 <= Z.land k a) by (apply Z.land_nonneg; right; lia).
  split; [exact P|]. apply in_range_bits; auto. intros i Hi. rewrite Z.land_spec, (range_bits w a i) by auto. apply andb_false_r.
Qed.
Lemma lor_range w k a : 0 <= w -> 0 <= k < 2 ^ w -> 0 <= a < 2 ^ w -> 0 <= Z.lor k a < 2 ^ w.
Proof.
  intros Hw Hk Ha. assert (P : 0 <= Z.lor k a) by (apply Z.lor_nonneg; lia).
  split; [exact P|]. apply in_range_bits; auto. intros i Hi. rewrite Z.lor_spec, (range_bits w a i), (range_bits w k i) by auto. reflexivity.
Qed.
Lemma bitwise_range w k a b : 0 <= w -> 0 <= k < 2 ^ w -> 0 <= a < 2 ^ w -> 0 <= b < 2 ^ w -> 0 <= lane_bitwise k a b < 2 ^ w.
Proof. intros. unfold lane_bitwise. apply lor_range; [auto|apply land_lnot_range; auto|apply land_range; auto]. Qed.

Lemma blend_register y cst s k l a b : where_shape s -> style_ok y s -> means s k l -> register s a -> register s b ->
  (match k with VMask _ => True | BMask _ => cst = false end) ->
  register s (blend y cst s k a b).
Proof.
  intros Hs Hy Hk Ha Hb Hc. split; [apply (blend_length y cst s k l); auto|]. intros i Hi.
  destruct Ha as [La Ra], Hb as [Lb Rb]. specialize (Ra i Hi). specialize (Rb i Hi).
  assert (W : 0 <= 8 * Z.of_nat (sz s)) by lia.
  destruct k as [m|w]; cbn [blend].
  - destruct Hk as (Hm & Hl & He & Hr). specialize (Hr i Hi).
    assert (BW : 0 <= nth i (map3 lane_bitwise m a b) 0 < 2 ^ (8 * Z.of_nat (sz s))).
    { rewrite (map3_nth _ _ _ _ i 0 0 0) by lia. apply bitwise_range; auto. }
    destruct cst; [exact BW|]. destruct y as [| |g|packs]; [|exact BW| |].
    + rewrite (map3_nth _ _ _ _ i 0 0 0) by lia. destruct (_ =? 0); auto.
    + rewrite (map3_nth _ _ _ _ i 0 0 0) by lia. destruct (signs_lw _ s g eq_refl Hy) as [Hg Hcc].
      pose proof (by_signs_range (Z.to_nat (lw s / g)) g (nth i m 0) (nth i a 0) (nth i b 0) Hg) as Q.
      rewrite Hcc in Q. exact Q.
    + rewrite bits_blend_nth by lia. destruct (Z.testbit _ _); auto.
  - rewrite Hc. rewrite bits_blend_nth by lia. destruct (Z.testbit _ _); auto.
Qed.

Definition chosen (k a b : list bool) : list bool := map3 (fun (k a b : bool) => if k then b else a) k a b.
Lemma chosen_nth k a b i : length a = length k -> length b = length k -> (i < length k)%nat ->
  nth i (chosen k a b) false = if nth i k false then nth i b false else nth i a false.
Proof. intros. unfold chosen. rewrite (map3_nth _ _ _ _ i false false false) by lia. reflexivity. Qed.
Lemma chosen_length k a b : length a = length k -> length b = length k -> length (chosen k a b) = length k.
Proof. intros. unfold chosen. rewrite map3_length. lia. Qed.

Lemma holds_register s x l : holds s x l -> register s x.
Proof. intros (Hx & _ & _ & Hr). split; auto. Qed.

Lemma mask_assign_core y cst s k a b l la lb : where_shape s -> style_ok y s ->
  means s k l -> means s a la -> means s b lb -> same_kind k a -> same_kind k b ->
  exists r, mask_masked_assign y cst s k a b = Some r /\ same_kind k r /\ means s r (chosen l la lb).
Proof.
  intros Hs Hy Hk Ha Hb Sa Sb. pose proof Hs as [Hz Hn].
  destruct k as [m|m], a as [a|a], b as [b|b]; try contradiction; cbn [mask_masked_assign].
  - eexists. split; [reflexivity|]. split; [exact I|].
    pose proof (blend_ok y cst s (VMask m) l a b Hs Hy Hk (holds_register _ _ _ Ha) (holds_register _ _ _ Hb)) as R.
    pose proof (blend_register y cst s (VMask m) l a b Hs Hy Hk (holds_register _ _ _ Ha) (holds_register _ _ _ Hb) I) as [RL RR].
    destruct Hk as (_ & Lk & _), Ha as (_ & La & Ea & _), Hb as (_ & Lb & Eb & _).
    split; [exact RL|]. split; [rewrite chosen_length; lia|]. split; [|exact RR].
    intros i Hi. rewrite (R i Hi), (Ea i Hi), (Eb i Hi). rewrite chosen_nth by lia. destruct (nth i l false); reflexivity.
  - eexists. split; [reflexivity|]. split; [exact I|].
    destruct Hk as (Hsz & Lk & Ek), Ha as (_ & La & Ea), Hb as (_ & Lb & Eb).
    split; [exact Hsz|]. split; [rewrite chosen_length; lia|]. intros i Hi.
    destruct (kw_ge (sn s) Hsz) as [Hkw _].
    unfold k_assign. rewrite kword_bit by lia. rewrite Z.lor_spec, !Z.land_spec, Z.lnot_spec by lia.
    rewrite (Ek i Hi), (Ea i Hi), (Eb i Hi). rewrite chosen_nth by lia.
    destruct (nth i l false), (nth i la false), (nth i lb false); reflexivity.
Qed.

Lemma implicit_holds s : where_shape s -> holds s (vec_implicit s) (repeat true (sn s)).
Proof.
  intros [Hz Hn]. unfold vec_implicit. pose proof (ones_pos s Hz) as O. unfold ones in *.
  change (2 ^ lw s) with (2 ^ (8 * Z.of_nat (sz s))) in *.
  destruct (Nat.ltb_spec (sn s) (st s)) as [Hlt|Hge].
  - split; [rewrite map_length, seq_length; reflexivity|]. split; [apply repeat_length|].
    assert (N : forall i, (i < st s)%nat -> nth i (map (fun i0 => if (i0 <? sn s)%nat then 2 ^ (8 * Z.of_nat (sz s)) - 1 else 0) (seq 0 (st s))) 0
       = if (i <? sn s)%nat then 2 ^ (8 * Z.of_nat (sz s)) - 1 else 0).
    { intros i Hi. rewrite (nth_indep _ 0 (if (0 <? sn s)%nat then 2 ^ (8 * Z.of_nat (sz s)) - 1 else 0)) by (rewrite map_length, seq_length; auto).
      rewrite (map_nth (fun i0 => if (i0 <? sn s)%nat then 2 ^ (8 * Z.of_nat (sz s)) - 1 else 0) (seq 0 (st s)) 0%nat i).
      rewrite seq_nth by auto. reflexivity. }
    split; intros i Hi.
    + rewrite N by lia. destruct (Nat.ltb_spec i (sn s)); [|lia]. rewrite (nth_indep _ false true) by (rewrite repeat_length; lia). rewrite nth_repeat. reflexivity.
    + rewrite N by lia. destruct (Nat.ltb_spec i (sn s)); lia.
  - split; [apply repeat_length|]. split; [apply repeat_length|].
    assert (N : forall i, (i < st s)%nat -> nth i (repeat (2 ^ (8 * Z.of_nat (sz s)) - 1) (st s)) 0 = 2 ^ (8 * Z.of_nat (sz s)) - 1).
    { intros i Hi. rewrite (nth_indep _ 0 (2 ^ (8 * Z.of_nat (sz s)) - 1)) by (rewrite repeat_length; lia). apply nth_repeat. }
    split; intros i Hi.
    + rewrite N by lia. rewrite (nth_indep _ false true) by (rewrite repeat_length; lia). rewrite nth_repeat. reflexivity.
    + rewrite N by lia. lia.
Qed.
Lemma zeros_holds s : where_shape s -> holds s (repeat 0 (st s)) (repeat false (sn s)).
Proof.
  intros Hs. destruct (zeros_register s Hs) as [L R]. split; [exact L|]. split; [apply repeat_length|]. split; [|exact R].
  intros i Hi. rewrite !nth_repeat. reflexivity.
Qed.

Lemma mask_assign_bool_core y c cst s k a l la x : where_shape s -> style_ok y s ->
  means s k l -> means s a la -> same_kind k a ->
  exists r, mask_masked_assign_bool y c cst s k a x = Some r /\ same_kind k r /\ means s r (chosen l la (repeat x (sn s))).
Proof.
  intros Hs Hy Hk Ha Sa. pose proof Hs as [Hz Hn].
  destruct k as [m|m], a as [a|a]; try contradiction; cbn [mask_masked_assign_bool].
  - eexists. split; [reflexivity|]. split; [exact I|]. destruct c.
    + pose proof Hk as (Hm & Lk & Ek & Rk). pose proof Ha as (Hma & La & Ea & Ra).
      assert (W : 0 <= 8 * Z.of_nat (sz s)) by lia.
      assert (P : 0 < 2 ^ (8 * Z.of_nat (sz s))) by (apply Z.pow_pos_nonneg; lia).
      assert (XN : forall i, (i < sn s)%nat -> nth i (repeat x (sn s)) false = x).
      { intros i Hi. rewrite (nth_indep _ false x) by (rewrite repeat_length; lia). apply nth_repeat. }
      assert (CL : length (chosen l la (repeat x (sn s))) = sn s) by (rewrite chosen_length; rewrite ?repeat_length; lia).
      destruct x.
      * split; [rewrite map2_length; lia|]. split; [exact CL|]. split; intros i Hi; rewrite (map2_nth _ _ _ i 0 0) by lia.
        -- rewrite (Ek i Hi), (Ea i Hi). rewrite chosen_nth by (rewrite ?repeat_length; lia). rewrite XN by auto.
           destruct (nth i l false).
           ++ destruct (nth i la false); [apply Z.lor_diag|apply Z.lor_0_r].
           ++ apply Z.lor_0_l.
        -- apply lor_range; [auto|apply Rk; auto|apply Ra; auto].
      * split; [rewrite map2_length; lia|]. split; [exact CL|]. split; intros i Hi; rewrite (map2_nth _ _ _ i 0 0) by lia.
        -- rewrite (Ek i Hi), (Ea i Hi). rewrite chosen_nth by (rewrite ?repeat_length; lia). rewrite XN by auto.
           destruct (nth i l false).
           ++ apply land_lnot_ones; [lia|]. destruct (nth i la false); lia.
           ++ change (Z.lnot 0) with (-1). apply Z.land_m1_l.
        -- apply land_lnot_range; [auto|apply Ra; auto].
    + destruct (mask_assign_core y cst s (VMask m) (VMask a) (VMask (if x then vec_implicit s else repeat 0 (st s))) l la (repeat x (sn s)) Hs Hy Hk Ha) as (r & E & _ & Hr); try exact I.
      { destruct x; [apply implicit_holds; auto|apply zeros_holds; auto]. }
      cbn [mask_masked_assign] in E. injection E as <-. exact Hr.
  - eexists. split; [reflexivity|]. split; [exact I|].
    destruct Hk as (Hsz & Lk & Ek), Ha as (_ & La & Ea). destruct (kw_ge (sn s) Hsz) as [Hkw _].
    split; [exact Hsz|]. split; [rewrite chosen_length; rewrite ?repeat_length; lia|]. intros i Hi.
    rewrite chosen_nth by (rewrite ?repeat_length; lia).
    assert (XN : nth i (repeat x (sn s)) false = x).
    { rewrite (nth_indep _ false x) by (rewrite repeat_length; lia). apply nth_repeat. }
    rewrite XN. unfold k_assign_bool. destruct x; rewrite kword_bit by lia.
    + rewrite Z.lor_spec, (Ek i Hi), (Ea i Hi). destruct (nth i l false), (nth i la false); reflexivity.
    + rewrite Z.land_spec, Z.lnot_spec, (Ek i Hi), (Ea i Hi) by lia. destruct (nth i l false), (nth i la false); reflexivity.
Qed.

(* names *)
Lemma members_ok o : o <> WShiftLeft -> o <> WShiftRight -> compiles where_member o = true.
Proof. intros. destruct o; try reflexivity; contradiction. Qed.
Lemma plain_members_ok o : compiles plain_member o = true.
Proof. destruct o; reflexivity. Qed.
Lemma members_bad : compiles where_member WShiftLeft = false /\ compiles where_member WShiftRight = false.
Proof. split; reflexivity. Qed.

Lemma float_patterns op f md : real_fmt f -> In op [fadd; fsub; fmul] -> forall x y, pattern f (op f md x y).
Proof.
  intros Hr Ho x y. pose proof (real_ok f Hr) as Hf. destruct Ho as [<-|[<-|[<-|[]]]].
  - apply (fadd_pattern f Hf).
  - apply (fsub_pattern f Hf).
  - apply (FloatFrexp.fmul_pattern f Hr).
Qed.
Lemma float_compound op f md y c s k l lhs rhs : real_fmt f -> fw f = 8 * Z.of_nat (sz s) -> In op [fadd; fsub; fmul] ->
  where_shape s -> style_ok y s -> means s k l -> register s lhs -> register s rhs ->
  exists r, masked_cassign (lanewise2 (float_lane2 op f md)) y c s k lhs rhs = Some r /\
    forall i, (i < sn s)%nat -> nth i r 0 = if nth i l false then op f md (nth i lhs 0) (nth i rhs 0) else nth i lhs 0.
Proof.
  intros Hf Hw Ho Hs Hy Hk Ha Hb. apply total_compound; auto. intros a b _ _.
  pose proof (float_patterns op f md Hf Ho a b) as P. unfold pattern in P. rewrite Hw in P. exact P.
Qed.
Lemma float_unary u f md y c s k l v : real_fmt f -> fw f = 8 * Z.of_nat (sz s) ->
  where_shape s -> style_ok y s -> means s k l -> register s v ->
  exists r, masked_unary (lanewise1 (float_lane1 u f md)) y c s k v = Some r /\
    forall i, (i < sn s)%nat -> nth i r 0 =
      if nth i l false then match u with
                            | UNegate => fneg f (nth i v 0)
                            | UIncrement => fadd f md (nth i v 0) (one_bits f)
                            | UDecrement => fsub f md (nth i v 0) (one_bits f)
                            end
      else nth i v 0.
Proof.
  intros Hr Hw Hs Hy Hk Ha. pose proof (real_ok f Hr) as Hf.
  apply (total_unary (fun x => match u with
                            | UNegate => fneg f x
                            | UIncrement => fadd f md x (one_bits f)
                            | UDecrement => fsub f md x (one_bits f)
                            end)); auto.
  intros a Hb. rewrite <- Hw in *. destruct u.
  - apply (fneg_pattern f Hf). exact Hb.
  - apply (fadd_pattern f Hf).
  - apply (fsub_pattern f Hf).
Qed.

Lemma scalar_where t k x z : std_type t -> isg t = false -> has t x -> has t z ->
  scalar_masked_assign k x z = (if k then z else x) /\
  scalar_masked_cassign (s_plus t) k x z = Some (if k then (x + z) mod 2 ^ iw t else x) /\
  scalar_masked_cassign (s_minus t) k x z = Some (if k then (x - z) mod 2 ^ iw t else x) /\
  scalar_masked_cassign (s_multiplies t) k x z = Some (if k then (x * z) mod 2 ^ iw t else x) /\
  (k = false \/ z <> 0 ->
    scalar_masked_cassign (s_divides t) k x z = Some (if k then x / z else x) /\
    scalar_masked_cassign (s_modulus t) k x z = Some (if k then x mod z else x)) /\
  (forall u, scalar_masked_unary (scalar_unary u t) k x = Some (if k then unary_value u x mod 2 ^ iw t else x)).
Proof.
  intros Ht Hs Hx Hz. destruct (ScalarProofs.c41_unsigned t x z Ht Hs Hx Hz) as (A & B & C & _ & D & E & _ & F & G).
  destruct k; unfold scalar_masked_assign, scalar_masked_cassign, scalar_masked_unary.
  - rewrite A, B, C. repeat (split; [reflexivity|]). split.
    + intros [?|N]; [discriminate|]. auto.
    + intros u; destruct u; auto.
  - repeat (split; [reflexivity|]). split; [auto|]. intros u; destruct u; reflexivity.
Qed.
(* signed elements *)
Lemma scalar_signed t k x z : std_type t -> isg t = true -> has t x -> has t z ->
  let fits v := - 2 ^ (Z.max 32 (iw t) - 1) <= v < 2 ^ (Z.max 32 (iw t) - 1) in
  let ok v r := (k = false -> r = Some x) /\ (k = true -> fits v -> exists w, r = Some w /\ wraps_to t v w) in
  ok (x + z) (scalar_masked_cassign (s_plus t) k x z) /\ ok (x - z) (scalar_masked_cassign (s_minus t) k x z) /\
  ok (x * z) (scalar_masked_cassign (s_multiplies t) k x z).
Proof.
  intros Ht Hs Hx Hz fits ok. destruct (c41_signed t x z Ht Hs Hx Hz) as ([A _] & [B _] & [C _] & _).
  unfold ok, scalar_masked_cassign. destruct k.
  - split; [|split]; (split; [discriminate|]); intros _ F; auto.
  - split; [|split]; (split; [reflexivity|]); discriminate.
Qed.
Lemma unsigned_compound op y c s k l lhs rhs : where_shape s -> style_ok y s -> means s k l -> register s lhs -> register s rhs ->
  exists r, masked_cassign (lanewise2 (int_lane2 op false (8 * Z.of_nat (sz s)))) y c s k lhs rhs = Some r /\
    replaced (sn s) l lhs (map (fun p => op (fst p) (snd p) mod 2 ^ (8 * Z.of_nat (sz s))) (combine lhs rhs)) r.
Proof.
  intros Hs Hy Hk Ha Hb. destruct (int_compound op y c s false k l lhs rhs Hs Hy Hk Ha Hb) as (r & E & H).
  { intros i _ C. discriminate C. }
  exists r. split; [exact E|]. intros i Hi. specialize (H i Hi). destruct Hs as [_ Hn], Ha as [La _], Hb as [Lb _].
  destruct (nth i l false); [|exact H]. destruct H as [_ H]. cbn [number] in H. rewrite H.
  set (g := fun p : Z * Z => op (fst p) (snd p) mod 2 ^ (8 * Z.of_nat (sz s))).
  rewrite (nth_indep (map g (combine lhs rhs)) 0 (g (0, 0))) by (rewrite map_length, combine_length; lia).
  rewrite map_nth, combine_nth by lia. reflexivity.
Qed.
Lemma mask_assign y cst s k a b l la lb : where_shape s -> style_ok y s ->
  means s k l -> means s a la -> means s b lb -> same_kind k a -> same_kind k b ->
  exists r lr, mask_masked_assign y cst s k a b = Some r /\ same_kind k r /\ means s r lr /\
    forall i, (i < sn s)%nat -> nth i lr false = if nth i l false then nth i lb false else nth i la false.
Proof.
  intros Hs Hy Hk Ha Hb Sa Sb. destruct (mask_assign_core y cst s k a b l la lb Hs Hy Hk Ha Hb Sa Sb) as (r & E & K & M).
  exists r, (chosen l la lb). repeat (split; [assumption|]). intros i Hi.
  assert (L : forall k l, means s k l -> length l = sn s) by (intros [x|x] z H; apply H).
  apply chosen_nth; rewrite ?(L _ _ Hk), ?(L _ _ Ha), ?(L _ _ Hb); auto.
Qed.
Lemma mask_assign_bool y c cst s k a l la x : where_shape s -> style_ok y s -> means s k l -> means s a la -> same_kind k a ->
  exists r lr, mask_masked_assign_bool y c cst s k a x = Some r /\ same_kind k r /\ means s r lr /\
    forall i, (i < sn s)%nat -> nth i lr false = if nth i l false then x else nth i la false.
Proof.
  intros Hs Hy Hk Ha Sa. destruct (mask_assign_bool_core y c cst s k a l la x Hs Hy Hk Ha Sa) as (r & E & K & M).
  exists r, (chosen l la (repeat x (sn s))). repeat (split; [assumption|]). intros i Hi.
  assert (L : forall k l, means s k l -> length l = sn s) by (intros [z|z] z' H; apply H).
  rewrite chosen_nth by (rewrite ?repeat_length, ?(L _ _ Hk), ?(L _ _ Ha); auto).
  assert (X : nth i (repeat x (sn s)) false = x).
  { rewrite (nth_indep _ false x) by (rewrite repeat_length; lia). apply nth_repeat. }
  rewrite X. reflexivity.
Qed.
(* where(k, v) op= scalar *)
Lemma scalar_compound op y c s k l lhs x : where_shape s -> style_ok y s -> means s k l -> register s lhs -> 0 <= x < 2 ^ (8 * Z.of_nat (sz s)) ->
  exists r, masked_cassign_scalar (lanewise2 (int_lane2 op false (8 * Z.of_nat (sz s)))) y c s k lhs x = Some r /\
    replaced (sn s) l lhs (map (fun a => op a x mod 2 ^ (8 * Z.of_nat (sz s))) lhs) r.
Proof.
  intros Hs Hy Hk Ha Hx. unfold masked_cassign_scalar.
  destruct (unsigned_compound op y c s k l lhs (vbroadcast s x) Hs Hy Hk Ha (vbroadcast_register s x Hs Hx)) as (r & E & R).
  exists r. split; [exact E|]. intros i Hi. rewrite (R i Hi). destruct (nth i l false); [|reflexivity].
  pose proof (vbroadcast_register s x Hs Hx) as [Lb _]. destruct Hs as [Hz Hn], Ha as [La _].
  set (g := fun p : Z * Z => op (fst p) (snd p) mod 2 ^ (8 * Z.of_nat (sz s))).
  rewrite (nth_indep (map g _) 0 (g (0, 0))) by (rewrite map_length, combine_length; lia).
  rewrite map_nth, combine_nth by lia. unfold g. cbn [fst snd]. rewrite vbroadcast_nth by (try split; auto).
  set (h := fun a => op a x mod 2 ^ (8 * Z.of_nat (sz s))).
  rewrite (nth_indep (map h lhs) 0 (h 0)) by (rewrite map_length; lia). rewrite map_nth. reflexivity.
Qed.
Lemma scalar_compound_float op f md y c s k l lhs x : real_fmt f -> fw f = 8 * Z.of_nat (sz s) -> In op [fadd; fsub; fmul] ->
  where_shape s -> style_ok y s -> means s k l -> register s lhs -> pattern f x ->
  exists r, masked_cassign_scalar (lanewise2 (float_lane2 op f md)) y c s k lhs x = Some r /\
    replaced (sn s) l lhs (map (fun a => op f md a x) lhs) r.
Proof.
  intros Hf Hw Ho Hs Hy Hk Ha Hx. unfold masked_cassign_scalar.
  assert (Hx' : 0 <= x < 2 ^ (8 * Z.of_nat (sz s))) by (rewrite <- Hw; exact Hx).
  destruct (float_compound op f md y c s k l lhs (vbroadcast s x) Hf Hw Ho Hs Hy Hk Ha (vbroadcast_register s x Hs Hx')) as (r & E & R).
  exists r. split; [exact E|]. intros i Hi. rewrite (R i Hi). destruct (nth i l false); [|reflexivity].
  destruct Hs as [Hz Hn], Ha as [La _]. rewrite vbroadcast_nth by (try split; auto).
  set (h := fun a => op f md a x).
  rewrite (nth_indep (map h lhs) 0 (h 0)) by (rewrite map_length; lia). rewrite map_nth. reflexivity.
Qed.
