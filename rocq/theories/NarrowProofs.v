From Coq Require Import ZArith List Bool Lia.
From Verif Require Import Prelude Abi AbiSpec Fixed FixedSpec Mem MemSpec MemProofs X86Lanes FloatSpec FloatRoundSpec FloatBits FloatArith FloatProofs FloatArithProofs ScalarSpec Scalar ScalarProofs NarrowSpec Narrow.
Import ListNotations.
Open Scope Z_scope.

Lemma b32_ok : fmt_ok binary32. Proof. unfold fmt_ok; cbn; lia. Qed.
Lemma b64_ok : fmt_ok binary64. Proof. unfold fmt_ok; cbn; lia. Qed.
Lemma x87_ok : fmt_ok x87. Proof. unfold fmt_ok; cbn; lia. Qed.
Lemma b128_ok : fmt_ok binary128. Proof. unfold fmt_ok; cbn; lia. Qed.
Lemma long_ok l : long_double_fmt l -> fmt_ok l.
Proof. intros [->|[->| ->]]; [exact b64_ok|exact x87_ok|exact b128_ok]. Qed.
Lemma format_ok l t : long_double_fmt l -> fmt_ok (format l t).
Proof. intros H. destruct t; [exact b32_ok|exact b64_ok|apply long_ok; auto]. Qed.

(* a format whose numbers are all numbers of another *)
Definition included (f g : fmt) : Prop := mb f <= mb g /\ bias f <= bias g.

Section Float.
  Variables f g : fmt.
  Hypothesis Hf : fmt_ok f.
  Hypothesis Hg : fmt_ok g.

  Lemma mb_nonneg h : fmt_ok h -> 1 <= mb h. Proof. intros [H _]. unfold mb. lia. Qed.
  Lemma unit_nonneg h : fmt_ok h -> 0 <= unit h.
  Proof. intros H. pose proof (mb_nonneg h H). destruct H as (? & ? & ?). unfold unit, mb in *. lia. Qed.

  Lemma scaled_repr a : included f g -> 0 <= a < inf_bits f ->
    repr g (mag f a * 2 ^ (unit g - unit f)).
  Proof.
    intros [Hm Hb] Ha. pose proof (mb_nonneg f Hf). pose proof (mb_nonneg g Hg).
    destruct (mag_shape f Hf a ltac:(lia)) as (d & e & He & Hd & Em & _).
    assert (Hu : 0 <= unit g - unit f) by (unfold unit; lia).
    assert (Hp : 0 < 2 ^ (unit g - unit f)) by (apply Z.pow_pos_nonneg; lia).
    assert (Hm0 : 0 <= mag f a) by (rewrite Em; apply Z.mul_nonneg_nonneg; [lia|apply Z.pow_nonneg; lia]).
    apply (repr_scaled g Hg d (e + (unit g - unit f))); [lia| | |].
    - assert (2 ^ mb f <= 2 ^ mb g) by (apply Z.pow_le_mono_r; lia). lia.
    - rewrite Z.abs_eq by nia. rewrite Em, Z.pow_add_r by lia. ring.
    - rewrite Z.abs_eq by nia. rewrite (mag_inf g Hg).
      apply Z.lt_le_trans with (2 ^ (mb f + 2 * bias f) * 2 ^ (unit g - unit f)).
      + apply Zmult_lt_compat_r; auto. rewrite <- (mag_inf f Hf).
        apply (mag_mono f Hf); lia.
      + assert (4 <= bias f) by (destruct Hf as (? & ? & ?); lia).
        rewrite <- Z.pow_add_r by lia. apply Z.pow_le_mono_r; [lia|]. unfold unit. lia.
  Qed.

  Lemma num_abs s m : 0 <= m -> num s m =? 0 = (m =? 0) /\ Z.abs (num s m) = m.
  Proof. intros H. destruct s; simpl; split; try lia; destruct (Z.eqb_spec (-m) 0), (Z.eqb_spec m 0); lia. Qed.

  Lemma num_neg s m : 0 <= m -> (if num s m =? 0 then s else num s m <? 0) = s.
  Proof.
    intros H. destruct s; simpl.
    - destruct (Z.eqb_spec (- m) 0); auto. destruct (Z.ltb_spec (- m) 0); auto. lia.
    - destruct (Z.eqb_spec m 0); auto. destruct (Z.ltb_spec m 0); auto. lia.
  Qed.

  Lemma fconv_included md x : included f g -> pattern f x ->
    pattern g (fconv f g md x) /\
    decode g (fconv f g md x) =
      match decode f x with
      | DFin s m => DFin s (m * 2 ^ (unit g - unit f))
      | d => d
      end.
  Proof.
    intros Hi Hx. unfold fconv. destruct (decode f x) as [|s|s m] eqn:D.
    - split; [apply pattern_nan; auto|apply decode_nan; auto].
    - split; [|apply decode_with_inf; auto].
      apply (with_sign_pattern g Hg). pose proof (inf_lt g Hg). pose proof (inf_pos g Hg). lia.
    - destruct (decode_fin f Hf x s m Hx D) as (a & Ha & -> & _).
      assert (Hu : 0 <= unit g - unit f) by (destruct Hi; unfold unit; lia).
      destruct (Z.leb_spec (unit f) (unit g)) as [_|]; [|lia].
      split; [apply fround_pattern; auto; lia|].
      assert (Hm0 : 0 <= mag f a).
      { destruct (mag_shape f Hf a ltac:(lia)) as (d & e & He & Hd & Em & _).
        rewrite Em. apply Z.mul_nonneg_nonneg; [lia|apply Z.pow_nonneg; lia]. }
      assert (Hp : 0 < 2 ^ (unit g - unit f)) by (apply Z.pow_pos_nonneg; lia).
      replace (num s (mag f a) * 2 ^ (unit g - unit f)) with (num s (mag f a * 2 ^ (unit g - unit f)))
        by (destruct s; simpl; lia).
      rewrite (fround_exact g Hg md s _ 0 (num s (mag f a * 2 ^ (unit g - unit f)))).
      + rewrite num_neg by nia. f_equal. apply num_abs. nia.
      + lia.
      + rewrite Z.pow_0_r, Z.mul_1_r. auto.
      + apply repr_num. apply scaled_repr; auto.
  Qed.

  Lemma decode_inj_fin x y s m : pattern f x -> pattern f y -> decode f x = DFin s m -> decode f y = DFin s m -> x = y.
  Proof.
    intros Hx Hy Dx Dy.
    destruct (decode_fin f Hf x s m Hx Dx) as (a & Ha & Ea & Ex).
    destruct (decode_fin f Hf y s m Hy Dy) as (b & Hb & Eb & Ey).
    assert (a = b) by (apply (mag_inj f Hf); try lia; congruence). subst. congruence.
  Qed.

  (* there and back *)
  Lemma fconv_back md md' x : included f g -> pattern f x ->
    pattern f (fconv g f md' (fconv f g md x)) /\
    (decode f x = DNaN /\ decode f (fconv g f md' (fconv f g md x)) = DNaN \/
     fconv g f md' (fconv f g md x) = x).
  Proof.
    intros Hi Hx. destruct (fconv_included md x Hi Hx) as [Hy Dy].
    set (y := fconv f g md x) in *. unfold fconv. rewrite Dy.
    assert (Hu : 0 <= unit g - unit f) by (destruct Hi; unfold unit; lia).
    destruct (decode f x) as [|s|s m] eqn:D.
    - split; [apply pattern_nan; auto|]. left. split; auto. apply decode_nan; auto.
    - rewrite <- (decode_inf f Hf x s Hx D). auto.
    - destruct (decode_fin f Hf x s m Hx D) as (a & Ha & -> & _).
      assert (Hm0 : 0 <= mag f a).
      { destruct (mag_shape f Hf a ltac:(lia)) as (d & e & He & Hd & Em & _).
        rewrite Em. apply Z.mul_nonneg_nonneg; [lia|apply Z.pow_nonneg; lia]. }
      assert (Hp : 0 < 2 ^ (unit g - unit f)) by (apply Z.pow_pos_nonneg; lia).
      assert (HR : repr f (num s (mag f a))) by (apply repr_num, repr_mag; auto).
      assert (E : num s (mag f a * 2 ^ (unit g - unit f)) = num s (mag f a) * 2 ^ (unit g - unit f))
        by (destruct s; simpl; lia).
      destruct (Z.leb_spec (unit g) (unit f)) as [Hle|Hlt].
      + assert (E0 : unit g - unit f = 0) by lia. rewrite E0 in *. rewrite Z.mul_1_r.
        replace (unit f - unit g) with 0 by lia.
        split; [apply fround_pattern; auto; lia|]. right.
        apply decode_inj_fin with s (mag f a); auto; [apply fround_pattern; auto; lia|].
        rewrite (fround_exact f Hf md' s _ 0 (num s (mag f a))); auto; try lia.
        change (2 ^ 0) with 1. rewrite Z.mul_1_r, num_neg by auto. f_equal. apply num_abs. auto.
      + split; [apply fround_pattern; auto; lia|]. right.
        apply decode_inj_fin with s (mag f a); auto; [apply fround_pattern; auto; lia|].
        rewrite (fround_exact f Hf md' s _ (unit g - unit f) (num s (mag f a))); auto; try lia.
        replace (num s (mag f a * 2 ^ (unit g - unit f)) =? 0) with (num s (mag f a) =? 0).
        * rewrite num_neg by auto. f_equal. apply num_abs. auto.
        * rewrite E. destruct (Z.eqb_spec (num s (mag f a)) 0) as [E0|]; [rewrite E0; auto|].
          symmetry. apply Z.eqb_neq. nia.
  Qed.

  (* integers *)
  Lemma fof_int_exact md v : Z.abs v <= 2 ^ fp f ->
    pattern f (fof_int f md v) /\ decode f (fof_int f md v) = DFin (v <? 0) (Z.abs v * one f).
  Proof.
    intros Hv. unfold fof_int. split; [apply fround_pattern; auto; lia|].
    assert (P : 0 < one f) by (apply one_pos; auto).
    assert (Hv2 : Z.abs v <= 2 * 2 ^ mb f).
    { replace (2 * 2 ^ mb f) with (2 ^ fp f); auto. unfold mb.
      rewrite <- Z.pow_succ_r by (destruct Hf; lia). f_equal. lia. }
    rewrite (fround_exact f Hf md false _ 0 (v * one f)).
    - fold (one f). rewrite Z.abs_mul, (Z.abs_eq (one f)) by lia. f_equal.
      destruct (Z.eqb_spec (v * one f) 0) as [E|N].
      + assert (v = 0) by nia. subst. auto.
      + destruct (Z.ltb_spec (v * one f) 0), (Z.ltb_spec v 0); auto; nia.
    - lia.
    - unfold one. rewrite Z.pow_0_r. lia.
    - apply repr_int; auto.
  Qed.
End Float.

(* ------------------------------------------------------------------ *)
Lemma aty_eqb_eq a b : aty_eqb a b = true -> a = b.
Proof.
  destruct a as [|[w s]|x], b as [|[w' s']|y]; simpl; try discriminate; auto.
  - unfold ity_eqb. simpl. intros H. apply andb_true_iff in H. destruct H as [H1 H2].
    apply Z.eqb_eq in H1. apply eqb_prop in H2. congruence.
  - destruct x, y; try discriminate; auto.
Qed.

(* the range of an integer type *)
Definition lowest (t : ity) : Z := if isg t then - 2 ^ (iw t - 1) else 0.
Definition highest (t : ity) : Z := if isg t then 2 ^ (iw t - 1) - 1 else 2 ^ iw t - 1.
Lemma has_range t v : has t v <-> lowest t <= v <= highest t.
Proof. unfold has, lowest, highest. destruct (isg t); lia. Qed.
Lemma range_order t : std_type t -> lowest t <= highest t.
Proof. unfold lowest, highest. intros H. pose proof (iw_pos t H).
  assert (0 < 2 ^ (iw t - 1)) by (apply Z.pow_pos_nonneg; lia).
  assert (0 < 2 ^ iw t) by (apply Z.pow_pos_nonneg; lia). destruct (isg t); lia. Qed.

(* no floating-point type converts to an integer type *)
Lemma float_int_narrowing l s t : long_double_fmt l -> std_type t -> narrowing l (AFloat s) (AInt t) = true.
Proof.
  intros Hl Ht.
  (* by digits, by signedness, or by the range *)
  assert (HD : digits l (AInt t) < digits l (AFloat s) -> narrowing l (AFloat s) (AInt t) = true).
  { intros D. unfold narrowing. cbn [aty_eqb]. apply Z.ltb_lt in D. rewrite D. reflexivity. }
  assert (HU : isg t = false -> narrowing l (AFloat s) (AInt t) = true).
  { intros E. unfold narrowing. cbn [aty_eqb is_signed is_unsigned]. rewrite E.
    cbn [negb andb]. rewrite orb_true_r. reflexivity. }
  destruct t as [w []]; [|apply HU; reflexivity]. unfold std_type in Ht. cbn [iw] in Ht.
  destruct s.
  - destruct Ht as [->|[->|[->| ->]]]; [apply HD; reflexivity ..|vm_compute; reflexivity|vm_compute; reflexivity].
  - destruct Ht as [->|[->|[->| ->]]]; [apply HD; reflexivity ..|vm_compute; reflexivity].
  - destruct Hl as [->|[->| ->]]; destruct Ht as [->|[->|[->| ->]]];
      try (apply HD; reflexivity). vm_compute. reflexivity.
Qed.

Lemma int_int_range l a b : std_type a -> std_type b ->
  narrowing l (AInt a) (AInt b) = negb ((lowest b <=? lowest a) && (highest a <=? highest b)).
Proof.
  destruct a as [w []], b as [w' []]; unfold std_type; cbn [iw];
    intros [->|[->|[->| ->]]] [->|[->|[->| ->]]]; vm_compute; reflexivity.
Qed.
Lemma int_int_values l a b : std_type a -> std_type b -> narrowing l (AInt a) (AInt b) = false ->
  forall v, has a v -> has b v.
Proof.
  intros Ha Hb H v. rewrite int_int_range in H by auto. apply negb_false_iff, andb_true_iff in H.
  destruct H as [H1 H2]. apply Z.leb_le in H1, H2. rewrite !has_range. lia.
Qed.
Lemma int_int_exact l a b : std_type a -> std_type b -> narrowing l (AInt a) (AInt b) = true ->
  exists v, has a v /\ ~ has b v.
Proof.
  intros Ha Hb H. rewrite int_int_range in H by auto. apply negb_true_iff, andb_false_iff in H.
  pose proof (range_order a Ha). pose proof (range_order b Hb).
  destruct H as [H|H]; apply Z.leb_gt in H.
  - exists (lowest a). rewrite !has_range. lia.
  - exists (highest a). rewrite !has_range. lia.
Qed.

Lemma std_pow t : std_type t -> 0 < 2 ^ (iw t - 1) /\ 2 ^ iw t = 2 * 2 ^ (iw t - 1).
Proof.
  intros H. pose proof (iw_pos t H). split; [apply Z.pow_pos_nonneg; lia|].
  rewrite <- Z.pow_succ_r by lia. f_equal. lia.
Qed.

(* a value of an integer type of at most p digits has magnitude at most 2^p *)
Lemma int_abs l t p v : std_type t -> digits l (AInt t) <= p -> has t v -> Z.abs v <= 2 ^ p.
Proof.
  intros Ht Hd Hv. simpl in Hd. pose proof (iw_pos t Ht). unfold has in Hv.
  destruct (isg t).
  - assert (2 ^ (iw t - 1) <= 2 ^ p) by (apply Z.pow_le_mono_r; lia). lia.
  - assert (2 ^ iw t <= 2 ^ p) by (apply Z.pow_le_mono_r; lia). lia.
Qed.

Lemma narrowing_digits l a b : aty_eqb a b = false -> narrowing l a b = false -> b <> ABool /\ digits l a <= digits l b.
Proof.
  intros E H. unfold narrowing in H. rewrite E in H. destruct b; try discriminate;
  (split; [congruence|]);
  apply orb_false_iff in H; destruct H as [H _]; apply orb_false_iff in H; destruct H as [H _];
  apply orb_false_iff in H; destruct H as [H _]; apply Z.ltb_ge in H; auto.
Qed.

Lemma formats_included l s t : long_double_fmt l -> fp (format l s) <= fp (format l t) -> included (format l s) (format l t).
Proof.
  intros [->|[->| ->]]; destruct s, t; vm_compute; intuition congruence.
Qed.

Definition round_trips (l : fmt) (from to : aty) (v : Z) : Prop :=
  forall md md', exists w v',
    cast l md from to v = Some w /\ valid l to w /\ same_number (number_of l from v) (number_of l to w) /\
    cast l md' to from w = Some v' /\ valid l from v' /\
    (v' = v \/ number_of l from v = NotANumber /\ number_of l from v' = NotANumber).

(* an integer that the format has *)
Lemma int_float_round_trip l a t v : long_double_fmt l -> (a = ABool \/ exists i, a = AInt i /\ std_type i) ->
  valid l a v -> Z.abs v <= 2 ^ fp (format l t) -> round_trips l a (AFloat t) v.
Proof.
  intros Hl Ha Hv B md md'. pose proof (format_ok l t Hl) as Hf.
  destruct (fof_int_exact (format l t) Hf md v B) as [Hp Hd].
  assert (P : 0 < one (format l t)) by (apply one_pos; auto).
  assert (HN : same_number (number_of l a v) (number_of l (AFloat t) (fof_int (format l t) md v))).
  { assert (E : number_of l a v = Fraction v 0) by (destruct Ha as [->|(i & -> & _)]; auto).
    rewrite E. cbn [number_of]. rewrite Hd. simpl.
    assert (En : num (v <? 0) (Z.abs v * one (format l t)) = v * one (format l t))
      by (destruct (Z.ltb_spec v 0); simpl; lia).
    rewrite En. unfold one. ring. }
  destruct Ha as [->|(i & -> & Hi)].
  - exists (fof_int (format l t) md v), v. repeat split; auto; try apply Hp.
    cbn [cast]. unfold fto_bool. rewrite Hd. destruct Hv as [->| ->]; simpl; auto.
    destruct (one (format l t)); auto; lia.
  - exists (fof_int (format l t) md v), v. repeat split; auto; try apply Hp.
    cbn [cast]. unfold fto_int. rewrite Hd. rewrite Z.div_mul by lia.
    assert (En : num (v <? 0) (Z.abs v) = v) by (destruct (Z.ltb_spec v 0); simpl; lia).
    cbn zeta. rewrite En. cbn [valid] in Hv. unfold has in Hv. destruct (isg i).
    + destruct (Z.leb_spec (- 2 ^ (iw i - 1)) v), (Z.ltb_spec v (2 ^ (iw i - 1))); auto; lia.
    + destruct (Z.leb_spec 0 v), (Z.ltb_spec v (2 ^ iw i)); auto; lia.
Qed.

Lemma same_number_fin n m k j : n * 2 ^ j = m * 2 ^ k -> same_number (Fraction n k) (Fraction m j).
Proof. auto. Qed.

Lemma float_float_round_trip l s t v : long_double_fmt l -> included (format l s) (format l t) ->
  valid l (AFloat s) v -> round_trips l (AFloat s) (AFloat t) v.
Proof.
  intros Hl Hi Hv md md'. pose proof (format_ok l s Hl) as Hf. pose proof (format_ok l t Hl) as Hg.
  cbn [valid] in Hv.
  destruct (fconv_included _ _ Hf Hg md v Hi Hv) as [Hp Hd].
  destruct (fconv_back _ _ Hf Hg md md' v Hi Hv) as [Hp' Hb].
  eexists _, _. split; [reflexivity|]. split; [exact Hp|]. split; [|split; [reflexivity|split; [exact Hp'|]]].
  - cbn [number_of]. rewrite Hd. destruct (decode (format l s) v) as [|b|b m]; simpl; auto.
    assert (Hu : 0 <= unit (format l t) - unit (format l s)) by (destruct Hi; unfold unit; lia).
    pose proof (unit_nonneg _ Hf).
    replace (unit (format l t)) with (unit (format l t) - unit (format l s) + unit (format l s)) at 1 by lia.
    rewrite Z.pow_add_r by lia. destruct b; simpl; ring.
  - destruct Hb as [[N1 N2]|E]; auto. right. cbn [number_of]. rewrite N1, N2. auto.
Qed.

Lemma preserves l from to v : long_double_fmt l -> aty_ok from -> aty_ok to ->
  narrowing l from to = false -> valid l from v -> round_trips l from to v.
Proof.
  intros Hl Hfr Hto Hn Hv. destruct (aty_eqb from to) eqn:E.
  - apply aty_eqb_eq in E. subst to. destruct from as [|t|t].
    + intros md md'. exists v, v. cbn [valid cast number_of] in *.
      assert ((if v =? 0 then 0 else 1) = v) by (destruct Hv as [->| ->]; auto).
      rewrite !H. repeat split; auto.
    + intros md md'. exists v, v. cbn [valid cast number_of aty_ok] in *.
      rewrite !conv_same by auto. repeat split; auto.
    + apply float_float_round_trip; auto. split; lia.
  - destruct (narrowing_digits l from to E Hn) as [Hb Hd].
    destruct from as [|a|s], to as [|b|t]; try congruence; cbn [aty_ok] in *.
    + intros md md'. exists v, v. cbn [valid cast number_of] in *.
      assert (HB : has b v).
      { cbn [digits] in Hd. pose proof (iw_pos b Hto). unfold has. destruct (isg b).
        - assert (2 ^ 8 <= 2 ^ (iw b - 1)) by (apply Z.pow_le_mono_r; lia). lia.
        - assert (2 ^ 8 <= 2 ^ iw b) by (apply Z.pow_le_mono_r; lia). lia. }
      rewrite conv_same by auto.
      assert ((if v =? 0 then 0 else 1) = v) by (destruct Hv as [->| ->]; auto).
      rewrite H. repeat split; auto.
    + apply int_float_round_trip; auto. cbn [valid digits] in *.
      assert (2 ^ 8 <= 2 ^ fp (format l t)) by (apply Z.pow_le_mono_r; lia). lia.
    + intros md md'. exists v, v. cbn [valid cast number_of] in *.
      pose proof (int_int_values l a b Hfr Hto Hn v Hv). rewrite !conv_same by auto. repeat split; auto.
    + apply int_float_round_trip; eauto. cbn [valid] in Hv. apply (int_abs l a); auto.
    + rewrite float_int_narrowing in Hn by auto. discriminate.
    + apply float_float_round_trip; auto. apply formats_included; auto.
Qed.
