(* Proofs of C71. *)
From Coq Require Import ZArith List Bool Arith Lia.
From Verif Require Import Prelude X86Lanes BitMask Abi AbiSpec Fixed FixedSpec FixedProofs FixedApply FixedStorage FixedMixed FixedTop
  FloatSpec FloatRoundSpec FloatBits FloatArith FloatProofs FloatRound FloatRoundTop Hypot SinCos ArithOps ArithSpec ArithProofs ArithTop
  FixedFrexpSpec FixedFrexpProofs FixedModfProofs FixedHypotProofs FixedArith FixedArithSpec.
Import ListNotations.
Local Open Scope nat_scope.

Lemma map2_len {X Y W} (g : X -> Y -> W) l k : length k = length l -> length (map2 g l k) = length l.
Proof. revert k. induction l; intros [|b k] H; simpl in *; auto; lia. Qed.
Lemma map2_nth {X Y W} (g : X -> Y -> W) l k i d e w : length k = length l -> i < length l ->
  nth i (map2 g l k) w = g (nth i l d) (nth i k e).
Proof. revert k i. induction l; intros [|b k] [|i] H Hi; simpl in *; auto; try lia. apply IHl; lia. Qed.

Lemma single_arith f md x y : real_fmt f -> pattern f x -> pattern f y ->
  sum_result f md (decode f x) (decode f y) (decode f (fadd f md x y)) /\
  sum_result f md (decode f x) (neg (decode f y)) (decode f (fsub f md x y)) /\
  product_result f md (decode f x) (decode f y) (decode f (fmul f md x y)).
Proof.
  intros Hf Hx Hy. destruct (operators_core f md [x] [y] Hf (Forall_cons _ Hx (Forall_nil _)) (Forall_cons _ Hy (Forall_nil _)) 0 x y eq_refl eq_refl)
    as (a & b & c & Ea & Eb & Ec & _ & _ & _ & H1 & H2 & H3).
  injection Ea as <-. injection Eb as <-. injection Ec as <-. auto.
Qed.
Lemma single_div f md x y : fmt_ok f -> pattern f x -> pattern f y ->
  quotient_result f md (decode f x) (decode f y) (decode f (SinCos.fdiv f md x y)).
Proof.
  intros Hf Hx Hy. destruct (divides_core false f md 1 [x] [y] Hf (Forall_cons _ Hx (Forall_nil _)) (Forall_cons _ Hy (Forall_nil _)) (le_n 1) 0 x y eq_refl eq_refl)
    as (z & d & Ez & _ & Ed & H & _). injection Ez as <-. injection Ed as <-. apply H. lia.
Qed.

(* one call for every register, results of the registers' length *)
Lemma registers_rel I ty n f F (R : Z -> list Z -> Z -> Prop) x more : fixed_size_type I ty n -> elem_format ty f ->
  is_fixed I ty n x -> Forall (is_fixed I ty n) more -> all_patterns f x -> Forall (all_patterns f) more ->
  (forall m reg regs, length regs = length more -> reg_ok (pattern f) m reg regs ->
     length (F m reg regs) = length reg /\
       forall i d, i < m -> R (nth i reg d) (map (fun r => nth i r d) regs) (nth i (F m reg regs) d)) ->
  is_fixed I ty n (apply_per_chunk F x more) /\
    forall i a bs, i < n -> t_get x i = Some a -> elements_at i more bs -> exists v, t_get (apply_per_chunk F x more) i = Some v /\ R a bs v.
Proof.
  intros HT _ Hx Hm Px Pm HF. destruct (fixed_facts I ty n x HT Hx) as (Hd & Hs & Hok & Hl & Hne).
  pose proof (fixed_other I ty n x more Hx Hm) as Ho.
  assert (HE : chunks_ok (reg_ok (pattern f)) x more).
  { apply chunks_elems; auto.
    - apply (FixedFrexpProofs.patterns_elems I ty n f x); auto.
    - rewrite Forall_forall in *. intros y Hy. apply (FixedFrexpProofs.patterns_elems I ty n f y); auto. }
  assert (HC : chunks_ok (fun m reg regs => length regs = length more /\ reg_ok (pattern f) m reg regs) x more).
  { clear - HE. assert (forall k, length more = k -> chunks_ok (fun m reg regs => length regs = k /\ reg_ok (pattern f) m reg regs) x more); [|auto].
    intros k. revert more HE. induction x as [|c x IH]; intros more HE E; cbn [chunks_ok] in *; auto. destruct HE as [H1 H2].
    split; [split; auto; unfold heads; rewrite map_length; auto|]. apply IH; auto. unfold tails. rewrite map_length. auto. }
  destruct (apply_rel R F x more Hok Ho) as [S1 S2].
  { eapply chunks_impl; [|exact HC]. intros m reg regs [E K]. apply HF; auto. }
  set (r := apply_per_chunk F x more) in *.
  assert (Hr : is_fixed I ty n r) by (unfold is_fixed in *; rewrite S1; auto).
  split; auto. intros i a bs Hi Ha Hb. exists (nth i (telems r) a).
  split; [apply (fixed_get_nth I ty n r i a HT Hr Hi)|].
  rewrite (fixed_get_nth I ty n x i a HT Hx Hi) in Ha. injection Ha as Ha.
  pose proof (fixed_gets I ty n more i a HT Hm Hi) as Hg. unfold elements_at in *.
  rewrite Hg in Hb. apply map_some_inj in Hb. rewrite <- Ha at 1. rewrite <- Hb. apply S2. lia.
Qed.

Lemma elem_pattern f (reg : list Z) m i d : m <= length reg -> i < m -> Forall (pattern f) (firstn m reg) -> pattern f (nth i reg d).
Proof.
  intros Hm Hi H. rewrite Forall_forall in H. apply H. rewrite <- (nth_first reg i m d Hi). apply nth_In. rewrite firstn_length. lia.
Qed.

Lemma divisor_nth b f n ys i d : fmt_ok f -> n <= length ys -> i < n -> pattern f (nth i ys d) ->
  nth i (divisor_reg b f n ys) d = nth i ys d.
Proof.
  intros Hf Hn Hi HP. unfold divisor_reg, make_padding_one. destruct (Nat.eqb_spec n (length ys)); auto.
  rewrite (map2_nth _ _ _ i 0 d) by (rewrite ?seq_length; lia). rewrite seq_nth by lia. rewrite Nat.add_0_l.
  pose proof (padding_lane b f n i (nth i ys d) Hf HP) as E. destruct (Nat.ltb_spec i n); [|lia]. destruct b; exact E.
Qed.
Lemma divisor_len b f n ys : length (divisor_reg b f n ys) = length ys.
Proof.
  unfold divisor_reg, make_padding_one. destruct (n =? length ys); auto. rewrite map2_len; rewrite seq_length; auto.
Qed.

Lemma arith_chunk_ok bm op f md m reg y : real_fmt f -> reg_ok (pattern f) m reg [y] ->
  length (arith_chunk bm op f md m reg [y]) = length reg /\
  forall i d, i < m -> arith_result op f md (decode f (nth i reg d)) (decode f (nth i y d)) (decode f (nth i (arith_chunk bm op f md m reg [y]) d)).
Proof.
  intros Hr (Hm & Hl & Hx & Hy). inversion Hl as [|? ? Ly _]; subst. inversion Hy as [|? ? Py _]; subst. pose proof (real_ok f Hr) as Hf.
  assert (HX : forall i d, i < m -> pattern f (nth i reg d)) by (intros; apply (elem_pattern f reg m); auto).
  assert (HY : forall i d, i < m -> pattern f (nth i y d)) by (intros; apply (elem_pattern f y m); auto; lia).
  unfold arith_chunk. cbn [hd].
  destruct op; cbn [arith_result]; unfold plus_reg, minus_reg, multiplies_reg, divides_reg.
  1-3: (split; [apply map2_len; auto|]; intros i d Hi; rewrite (map2_nth _ reg y i d d) by lia;
    destruct (single_arith f md _ _ Hr (HX i d Hi) (HY i d Hi)) as (A & B & C); auto).
  destruct (m =? 1).
  - split; [apply map2_len; auto|]. intros i d Hi. rewrite (map2_nth _ reg y i d d) by lia. apply single_div; auto.
  - split; [apply map2_len; rewrite divisor_len; auto|]. intros i d Hi. rewrite (map2_nth _ reg _ i d d) by (rewrite ?divisor_len; lia).
    rewrite divisor_nth by (auto; lia). apply single_div; auto.
Qed.

Lemma arith_fixed_ok bm op f md I ty n x y : elem_format ty f -> fixed_size_type I ty n ->
  is_fixed I ty n x -> is_fixed I ty n y -> all_patterns f x -> all_patterns f y ->
  is_fixed I ty n (arith_fixed bm op f md x y) /\
  forall i a b, i < n -> t_get x i = Some a -> t_get y i = Some b ->
    exists c, t_get (arith_fixed bm op f md x y) i = Some c /\ arith_result op f md (decode f a) (decode f b) (decode f c).
Proof.
  intros He HT Hx Hy Px Py. destruct (elem_format_fp ty f He) as [_ Hr].
  destruct (registers_rel I ty n f (arith_chunk bm op f md)
    (fun a bs c => match bs with [b] => arith_result op f md (decode f a) (decode f b) (decode f c) | _ => False end) x [y] HT He Hx) as [H1 H2]; auto.
  - intros m reg [|r [|]] El HK; try discriminate El. apply arith_chunk_ok; auto.
  - split; auto. intros i a b Hi Ha Hb. destruct (H2 i a [b] Hi Ha) as (c & Ec & Hc); [unfold elements_at; cbn [map]; rewrite Hb; auto|].
    exists c. auto.
Qed.

Lemma unary_fixed I ty n f (g : nat -> Z -> Z) (R : Z -> Z -> Prop) x : fixed_size_type I ty n -> elem_format ty f ->
  is_fixed I ty n x -> all_patterns f x -> (forall m a, pattern f a -> R a (g m a)) ->
  forall F, (forall m reg regs, F m reg regs = map (g m) reg) ->
  is_fixed I ty n (apply_per_chunk F x []) /\
  forall i a, i < n -> t_get x i = Some a -> exists b, t_get (apply_per_chunk F x []) i = Some b /\ R a b.
Proof.
  intros HT He Hx Px HR F HF. destruct (registers_rel I ty n f F (fun a _ c => R a c) x [] HT He Hx) as [H1 H2]; auto.
  - intros m reg regs _ (Hm & _ & Hr & _). rewrite HF, map_length. split; auto. intros i d Hi.
    rewrite (nth_indep (map (g m) reg) d (g m d)) by (rewrite map_length; lia). rewrite map_nth. apply HR. apply (elem_pattern f reg m); auto.
  - split; auto. intros i a Hi Ha. apply (H2 i a [] Hi Ha). reflexivity.
Qed.

Lemma sqrt_fixed_ok std_sqrt f md I ty n x : elem_format ty f -> fixed_size_type I ty n -> std_sqrt_ok f md std_sqrt ->
  is_fixed I ty n x -> all_patterns f x ->
  is_fixed I ty n (sqrt_fixed std_sqrt f md x) /\
  forall i a, i < n -> t_get x i = Some a ->
    exists b, t_get (sqrt_fixed std_sqrt f md x) i = Some b /\ sqrt_result f md (decode f a) (decode f b).
Proof.
  intros He HT Hs Hx Px. destruct (elem_format_fp ty f He) as [_ Hr].
  apply (unary_fixed I ty n f (fun m => if m =? 1 then std_sqrt else fsqrt f md) (fun a b => sqrt_result f md (decode f a) (decode f b)) x); auto.
  - intros m a Ha. destruct (m =? 1); [apply Hs; auto|].
    destruct (sqrt_core f md [a] (real_ok f Hr) (Forall_cons _ Ha (Forall_nil _)) 0 a eq_refl) as (z & Ez & _ & H). injection Ez as <-. auto.
  - intros m reg _. destruct (m =? 1); reflexivity.
Qed.

Lemma rounding_fixed_ok std arm generic fn t f md I ty n x : elem_format ty f -> fixed_size_type I ty n -> std_rounding_ok f md std ->
  is_fixed I ty n x -> all_patterns f x ->
  is_fixed I ty n (rounding_fixed std arm generic fn t f md x) /\
  forall i a, i < n -> t_get x i = Some a ->
    exists b, t_get (rounding_fixed std arm generic fn t f md x) i = Some b /\ integer_result (rounding_rule fn md) f (decode f a) (decode f b).
Proof.
  intros He HT Hs Hx Px. pose proof (elem_fmts ty f He) as Hf.
  apply (unary_fixed I ty n f (fun m => if m =? 1 then std fn else rounding_lane arm generic fn t f md m)
    (fun a b => integer_result (rounding_rule fn md) f (decode f a) (decode f b)) x); auto.
  - intros m a Ha. destruct (m =? 1); [apply Hs; auto|]. destruct fn; cbn [rounding_lane rounding_rule].
    + apply c36_trunc; auto.
    + apply c36_floor; auto.
    + apply c36_ceil; auto.
    + apply c36_round; auto.
    + apply c36_nearbyint; auto.
  - intros m reg _. destruct (m =? 1); reflexivity.
Qed.
