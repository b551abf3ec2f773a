(* Proofs about mask-register masks (KMask) *)
From Coq Require Import List ZArith Lia Bool Arith.
From Verif Require Import Prelude MaskSpec BitMask BitMaskProofs KMask KMaskSpec.
Import ListNotations.
Local Open Scope Z_scope.

Notation W n := (Z.of_nat (kw n)).

Lemma kw_ge n : size_ok n -> (n <= kw n)%nat /\ (8 <= kw n)%nat.
Proof. intros [H _]. unfold kw. pose proof (bit_ceil_ge n). lia. Qed.

Lemma kw_pos n : 0 < W n.
Proof. unfold kw. lia. Qed.

Lemma kw_cases n : size_ok n -> kw n = 8%nat \/ kw n = 16%nat \/ kw n = 32%nat \/ kw n = 64%nat.
Proof.
  intros [H1 H2]. unfold kw, bit_ceil.
  assert (Nat.log2_up n <= 6)%nat by (change 6%nat with (Nat.log2_up 64); apply Nat.log2_up_le_mono; lia).
  destruct (Nat.log2_up n) as [|[|[|[|[|[|[|]]]]]]]; cbn; auto; lia.
Qed.

Lemma kword_bound n x : 0 <= kword n x < 2 ^ W n.
Proof. unfold kword. apply Z.mod_pos_bound. apply Z.pow_pos_nonneg; lia. Qed.

Lemma kword_bit n x i : (i < kw n)%nat -> Z.testbit (kword n x) (Z.of_nat i) = Z.testbit x (Z.of_nat i).
Proof.
  intros. unfold kword. rewrite Z.mod_pow2_bits_low by lia. auto.
Qed.

Lemma k_get_bit k i : k_get k i = Z.testbit k (Z.of_nat i).
Proof. unfold k_get. rewrite <- Z.shiftl_1_l, testbit_landpow by lia. auto. Qed.

Lemma implicit_bit n i : size_ok n -> (i < kw n)%nat ->
  Z.testbit (implicit_mask n) (Z.of_nat i) = (i <? n)%nat.
Proof.
  intros Hn Hi. pose proof (kw_ge n Hn). unfold implicit_mask.
  destruct (Nat.ltb_spec n (kw n)).
  - rewrite kword_bit by auto.
    replace (2 ^ Z.of_nat n - 1) with (Z.ones (Z.of_nat n)) by (rewrite Z.ones_equiv; lia).
    rewrite testbit_ones by lia.
    destruct (Nat.ltb_spec i n), (Z.ltb_spec (Z.of_nat i) (Z.of_nat n)); auto; lia.
  - rewrite kword_bit by auto. rewrite Z.bits_m1 by lia.
    symmetry. apply Nat.ltb_lt. lia.
Qed.

Lemma implicit_bound n : 0 <= implicit_mask n < 2 ^ W n.
Proof. unfold implicit_mask. destruct (_ <? _)%nat; apply kword_bound. Qed.

Lemma of_lanes_bit l : forall i, Z.testbit (of_lanes l) (Z.of_nat i) = nth i l false.
Proof.
  induction l as [|b t IH]; intros i.
  - cbn [of_lanes]. rewrite Z.bits_0. destruct i; auto.
  - cbn [of_lanes]. destruct i as [|i].
    + cbn [nth]. change (Z.of_nat 0) with 0. rewrite Z.bit0_odd, Z.odd_add, Z.odd_mul.
      destruct b; cbn; auto.
    + cbn [nth]. rewrite <- IH. rewrite Nat2Z.inj_succ.
      destruct b; unfold b2z.
      * rewrite Z.add_comm, Z.testbit_odd_succ by lia. auto.
      * rewrite Z.add_0_l, Z.testbit_even_succ by lia. auto.
Qed.

Lemma masked_bit n k i : size_ok n -> 0 <= k < 2 ^ W n ->
  Z.testbit (k_masked n k) (Z.of_nat i) = (Z.testbit k (Z.of_nat i) && (i <? n)%nat)%bool.
Proof.
  intros Hn Hk. pose proof (kw_ge n Hn) as [H1 H2]. unfold k_masked.
  destruct (le_lt_dec (kw n) i) as [Hi|Hi].
  - rewrite (testbit_above k (W n)) by lia.
    destruct (_ || _)%bool; rewrite ?Z.land_spec, (testbit_above k (W n)) by lia; auto.
  - destruct (Nat.ltb_spec n 8); cbn [orb].
    + rewrite Z.land_spec, kword_bit by auto.
      replace (2 ^ Z.of_nat n - 1) with (Z.ones (Z.of_nat n)) by (rewrite Z.ones_equiv; lia).
      rewrite testbit_ones by lia. f_equal.
      destruct (Nat.ltb_spec i n), (Z.ltb_spec (Z.of_nat i) (Z.of_nat n)); auto; lia.
    + destruct (Nat.eqb_spec (bit_ceil n) n) as [E|E]; cbn [negb].
      * assert (kw n = n) by (unfold kw; lia).
        replace (i <? n)%nat with true by (symmetry; apply Nat.ltb_lt; lia).
        rewrite andb_true_r. auto.
      * rewrite Z.land_spec, kword_bit by auto.
        replace (2 ^ Z.of_nat n - 1) with (Z.ones (Z.of_nat n)) by (rewrite Z.ones_equiv; lia).
        rewrite testbit_ones by lia. f_equal.
        destruct (Nat.ltb_spec i n), (Z.ltb_spec (Z.of_nat i) (Z.of_nat n)); auto; lia.
Qed.

Lemma masked_bound n k : 0 <= k < 2 ^ W n -> 0 <= k_masked n k < 2 ^ W n.
Proof.
  intros. unfold k_masked. destruct (_ || _)%bool; auto.
  apply land_bound; auto; [lia|]. apply kword_bound.
Qed.

Lemma set_bound n k i x : 0 <= k_set n k i x < 2 ^ W n.
Proof. unfold k_set. destruct x; apply kword_bound. Qed.

Lemma set_bit n k i x j : (j < kw n)%nat ->
  Z.testbit (k_set n k i x) (Z.of_nat j) = if (j =? i)%nat then x else Z.testbit k (Z.of_nat j).
Proof.
  intros Hj. unfold k_set.
  assert (E : Z.testbit (2 ^ Z.of_nat i) (Z.of_nat j) = (j =? i)%nat).
  { rewrite testbit_pow2 by lia.
    destruct (Z.eqb_spec (Z.of_nat i) (Z.of_nat j)), (Nat.eqb_spec j i); auto; lia. }
  destruct x; rewrite kword_bit by auto.
  - rewrite Z.lor_spec, E. destruct (j =? i)%nat; auto using orb_true_r. apply orb_false_r.
  - rewrite Z.land_spec, Z.lnot_spec, E by lia.
    destruct (j =? i)%nat; cbn; [apply andb_false_r|apply andb_true_r].
Qed.

Lemma fold_set_bound n (g : nat -> bool) l : forall k, 0 <= k < 2 ^ W n ->
  0 <= fold_left (fun k i => k_set n k i (g i)) l k < 2 ^ W n.
Proof. induction l; intros; cbn [fold_left]; auto. apply IHl. apply set_bound. Qed.

Lemma fold_set_bit n (g : nat -> bool) l j : (j < kw n)%nat -> forall k,
  Z.testbit (fold_left (fun k i => k_set n k i (g i)) l k) (Z.of_nat j)
  = if existsb (Nat.eqb j) l then g j else Z.testbit k (Z.of_nat j).
Proof.
  intros Hj. induction l as [|i l IH]; intros k; cbn [fold_left existsb]; auto.
  rewrite IH, set_bit by auto.
  destruct (existsb (Nat.eqb j) l); [rewrite orb_true_r; auto|].
  rewrite orb_false_r. destruct (Nat.eqb_spec j i) as [E|E]; subst; auto.
Qed.

Lemma existsb_seq j n : existsb (Nat.eqb j) (seq 0 n) = (j <? n)%nat.
Proof.
  apply eq_true_iff_eq. rewrite existsb_exists, Nat.ltb_lt. split.
  - intros (x & Hx & E). apply Nat.eqb_eq in E. apply in_seq in Hx. lia.
  - intros H. exists j. rewrite in_seq, Nat.eqb_eq. lia.
Qed.

Lemma existsb_filter_seq (f : nat -> bool) j n :
  existsb (Nat.eqb j) (filter f (seq 0 n)) = ((j <? n)%nat && f j)%bool.
Proof.
  apply eq_true_iff_eq. rewrite existsb_exists, andb_true_iff, Nat.ltb_lt. split.
  - intros (x & Hx & E). apply Nat.eqb_eq in E. apply filter_In in Hx.
    destruct Hx as [Hx Hf]. apply in_seq in Hx. subst. split; [lia|auto].
  - intros [H Hf]. exists j. rewrite filter_In, in_seq, Nat.eqb_eq. split; [split|]; auto; lia.
Qed.

Lemma nth_repeat_lt {A} (x d : A) n i : (i < n)%nat -> nth i (repeat x n) d = x.
Proof. revert i; induction n; intros [|i] H; cbn; auto; try lia. apply IHn. lia. Qed.

Lemma mload_vl_bit n a k m j : (j < kw n)%nat ->
  Z.testbit (k_masked_load_vl n a k m) (Z.of_nat j)
  = if Z.testbit k (Z.of_nat j) then m j else Z.testbit a (Z.of_nat j).
Proof.
  intros Hj. unfold k_masked_load_vl. rewrite kword_bit by auto.
  rewrite Z.lor_spec, Z.land_spec, Z.lnot_spec, of_lanes_bit by lia.
  rewrite nth_map_seq by auto. rewrite k_get_bit. cbn [Nat.add].
  destruct (Z.testbit k _), (Z.testbit a _); auto.
Qed.

Lemma mload_bits_bit n a k m j : (j < kw n)%nat ->
  Z.testbit (k_masked_load_bits n a k m) (Z.of_nat j)
  = if Z.testbit k (Z.of_nat j) then m j else Z.testbit a (Z.of_nat j).
Proof.
  intros Hj. unfold k_masked_load_bits. rewrite fold_set_bit by auto.
  rewrite existsb_filter_seq, k_get_bit.
  replace (j <? kw n)%nat with true by (symmetry; apply Nat.ltb_lt; auto). auto.
Qed.

(* ------------------------------------------------------------------ *)
(* every expression *)
Lemma meaning_length n e : kexpr_ok n e -> length (k_meaning n e) = n.
Proof.
  induction e; cbn [kexpr_ok k_meaning]; intros H;
    repeat match goal with H : _ /\ _ |- _ => destruct H end;
    rewrite ?repeat_length, ?map_length, ?map2_length, ?map3_length, ?seq_length,
      ?firstn_length, ?upd_length, ?map_length;
    rewrite ?IHe, ?IHe1, ?IHe2, ?IHe3 by auto; rewrite ?seq_length; try lia; auto.
Qed.

Lemma eval_bound vl n e : size_ok n -> kexpr_ok n e -> 0 <= k_eval vl n e < 2 ^ W n.
Proof.
  intros Hn. induction e; cbn [kexpr_ok k_eval]; intros H;
    repeat match goal with H : _ /\ _ |- _ => destruct H end; auto;
    try (apply kword_bound).
  - unfold k_broadcast. destruct x; [apply masked_bound, kword_bound|].
    split; [lia|]. apply Z.pow_pos_nonneg; lia.
  - apply fold_set_bound. split; [lia|]. apply Z.pow_pos_nonneg; lia.
  - apply set_bound.
  - unfold k_assign_bool. destruct x; apply kword_bound.
  - destruct vl; [apply kword_bound|]. apply fold_set_bound. auto.
Qed.

Ltac kbits := repeat (rewrite ?Z.land_spec, ?Z.lor_spec, ?Z.lxor_spec, ?of_lanes_bit; try rewrite Z.lnot_spec by lia).

(* one formula for every bit of the word: the elements below n, and above *)
Lemma eval_low vl n e : size_ok n -> kexpr_ok n e -> forall i, (i < n)%nat ->
  Z.testbit (k_eval vl n e) (Z.of_nat i) = nth i (k_meaning n e) false.
Proof.
  intros Hn. pose proof (kw_ge n Hn) as [Hw _].
  assert (Him : forall i, (i < n)%nat -> Z.testbit (implicit_mask n) (Z.of_nat i) = true).
  { intros i Hi. rewrite implicit_bit by (auto; lia). apply Nat.ltb_lt; auto. }
  induction e; cbn [kexpr_ok k_eval k_meaning]; intros H i0 Hi;
    repeat match goal with H : _ /\ _ |- _ => destruct H end;
    repeat match goal with
    | IH : kexpr_ok n ?e -> _, H : kexpr_ok n ?e |- _ => specialize (IH H i0 Hi)
    end.
  - unfold k_broadcast. rewrite nth_repeat_lt by auto. destruct x.
    + rewrite masked_bit by (auto; apply kword_bound). rewrite kword_bit, Z.bits_m1 by lia.
      apply Nat.ltb_lt; auto.
    + apply Z.bits_0.
  - unfold k_bitset. rewrite kword_bit by lia. kbits. rewrite nth_firstn_lt; auto.
  - unfold k_generate. rewrite fold_set_bit by lia. rewrite existsb_seq.
    replace (i0 <? n)%nat with true by (symmetry; apply Nat.ltb_lt; auto).
    rewrite nth_map_seq by auto. auto.
  - unfold k_load. rewrite kword_bit by lia. kbits.
    rewrite app_nth1 by (rewrite map_length, seq_length; auto). auto.
  - rewrite kword_bit by lia. rewrite nth_map_seq by auto. cbn [Nat.add].
    rewrite <- Z.shiftr_div_pow2 by lia. rewrite <- Z.bit0_odd, Z.shiftr_spec by lia. rewrite Z.add_0_l. auto.
  - unfold k_compare. rewrite kword_bit by lia. kbits. rewrite Him, nth_firstn_lt by auto. auto.
  - unfold k_int_not_equal. rewrite kword_bit by lia. kbits. rewrite Him by auto.
    rewrite (nth_indep (map negb _) false (negb false)) by (rewrite map_length, firstn_length; lia).
    rewrite map_nth. rewrite nth_firstn_lt by auto. auto.
  - unfold k_lane_test. rewrite kword_bit by lia. kbits. rewrite nth_firstn_lt by auto. auto.
  - unfold k_not_class. rewrite kword_bit by lia. kbits. rewrite Him by auto.
    rewrite (nth_indep (map negb _) false (negb false)) by (rewrite map_length, firstn_length; lia).
    rewrite map_nth. rewrite nth_firstn_lt by auto. auto.
  - auto.
  - unfold k_not. rewrite kword_bit by lia. kbits. rewrite Him, IHe by auto.
    rewrite (nth_indep (map negb _) false (negb false)) by (rewrite map_length, meaning_length; auto).
    rewrite map_nth. apply andb_true_r.
  - unfold k_and. rewrite kword_bit by lia. kbits. rewrite IHe1, IHe2.
    rewrite (map2_nth _ _ _ i0 false false false) by (rewrite meaning_length; auto). auto.
  - unfold k_or. rewrite kword_bit by lia. kbits. rewrite IHe1, IHe2.
    rewrite (map2_nth _ _ _ i0 false false false) by (rewrite meaning_length; auto). auto.
  - unfold k_xor. rewrite kword_bit by lia. kbits. rewrite IHe1, IHe2.
    rewrite (map2_nth _ _ _ i0 false false false) by (rewrite meaning_length; auto). auto.
  - unfold k_and. rewrite kword_bit by lia. kbits. rewrite IHe1, IHe2.
    rewrite (map2_nth _ _ _ i0 false false false) by (rewrite meaning_length; auto). auto.
  - unfold k_or. rewrite kword_bit by lia. kbits. rewrite IHe1, IHe2.
    rewrite (map2_nth _ _ _ i0 false false false) by (rewrite meaning_length; auto). auto.
  - unfold k_not, k_xor. rewrite kword_bit by lia. kbits. rewrite kword_bit by lia. kbits.
    rewrite IHe1, IHe2, Him by auto.
    rewrite (map2_nth _ _ _ i0 false false false) by (rewrite meaning_length; auto).
    destruct (nth i0 (k_meaning n e1) false), (nth i0 (k_meaning n e2) false); auto.
  - unfold k_xor. rewrite kword_bit by lia. kbits. rewrite IHe1, IHe2.
    rewrite (map2_nth _ _ _ i0 false false false) by (rewrite meaning_length; auto). auto.
  - rewrite set_bit by lia. rewrite IHe. destruct (Nat.eqb_spec i0 i) as [E|E].
    + subst. rewrite upd_nth_same; auto. rewrite meaning_length; auto.
    + rewrite upd_nth_other; auto.
  - unfold k_assign. rewrite kword_bit by lia. kbits. rewrite IHe1, IHe2, IHe3.
    rewrite (map3_nth _ _ _ _ i0 false false false false) by (rewrite meaning_length; auto).
    destruct (nth i0 (k_meaning n e1) false), (nth i0 (k_meaning n e2) false),
      (nth i0 (k_meaning n e3) false); auto.
  - rewrite (map2_nth _ _ _ i0 false false false) by (rewrite meaning_length; auto).
    rewrite <- IHe1, <- IHe2.
    unfold k_assign_bool. destruct x; rewrite kword_bit by lia; kbits;
    destruct (Z.testbit _ _), (Z.testbit _ _); auto.
  - rewrite (map3_nth _ _ _ _ i0 false false false false)
      by (rewrite ?meaning_length, ?map_length, ?seq_length; auto).
    rewrite nth_map_seq by auto. cbn [Nat.add]. rewrite <- IHe1, <- IHe2.
    destruct vl; [apply mload_vl_bit|apply mload_bits_bit]; lia.
Qed.

(* bits above the elements *)
Lemma eval_high vl n e : size_ok n -> kexpr_ok n e -> cleans e ->
  forall i, (n <= i)%nat -> (i < kw n)%nat -> Z.testbit (k_eval vl n e) (Z.of_nat i) = false.
Proof.
  intros Hn. pose proof (kw_ge n Hn) as [Hw _].
  assert (Him : forall i, (n <= i)%nat -> (i < kw n)%nat ->
            Z.testbit (implicit_mask n) (Z.of_nat i) = false).
  { intros i Hi Hk. rewrite implicit_bit by auto. apply Nat.ltb_ge; auto. }
  induction e; cbn [kexpr_ok k_eval cleans]; intros H Hc i0 Hi Hk;
    repeat match goal with H : _ /\ _ |- _ => destruct H end; try contradiction.
  - unfold k_broadcast. destruct x; [|apply Z.bits_0].
    rewrite masked_bit by (auto; apply kword_bound).
    replace (i0 <? n)%nat with false by (symmetry; apply Nat.ltb_ge; auto). apply andb_false_r.
  - unfold k_bitset. rewrite kword_bit by lia. kbits.
    apply nth_overflow. rewrite firstn_length. lia.
  - unfold k_generate. rewrite fold_set_bit by lia. rewrite existsb_seq.
    replace (i0 <? n)%nat with false by (symmetry; apply Nat.ltb_ge; auto). apply Z.bits_0.
  - unfold k_load. rewrite kword_bit by lia. kbits.
    rewrite app_nth2 by (rewrite map_length, seq_length; auto).
    rewrite map_length, seq_length.
    apply nth_repeat_lt. lia.
  - unfold k_compare. rewrite kword_bit by lia. kbits. rewrite Him by auto. auto.
  - unfold k_not_class. rewrite kword_bit by lia. kbits. rewrite Him by auto. auto.
  - auto.
  - unfold k_not. rewrite kword_bit by lia. kbits. rewrite Him by auto. apply andb_false_r.
  - unfold k_and. rewrite kword_bit by lia. kbits.
    destruct Hc as [Hc|Hc]; [rewrite IHe1|rewrite IHe2]; auto. apply andb_false_r.
  - unfold k_or. rewrite kword_bit by lia. kbits. rewrite IHe1, IHe2; auto.
  - unfold k_xor. rewrite kword_bit by lia. kbits. rewrite IHe1, IHe2; auto.
  - unfold k_and. rewrite kword_bit by lia. kbits.
    destruct Hc as [Hc|Hc]; [rewrite IHe1|rewrite IHe2]; auto. apply andb_false_r.
  - unfold k_or. rewrite kword_bit by lia. kbits. rewrite IHe1, IHe2; auto.
  - unfold k_not. rewrite kword_bit by lia. kbits. rewrite Him by auto. apply andb_false_r.
  - unfold k_xor. rewrite kword_bit by lia. kbits. rewrite IHe1, IHe2; auto.
  - rewrite set_bit by lia. destruct (Nat.eqb_spec i0 i); [lia|]. auto.
  - unfold k_assign. rewrite kword_bit by lia. kbits. rewrite IHe2 by auto.
    rewrite andb_false_r. cbn [orb].
    match goal with H : _ \/ _ |- _ => destruct H end.
    + rewrite IHe1; auto.
    + rewrite IHe3; auto. apply andb_false_r.
  - unfold k_assign_bool. destruct x; rewrite kword_bit by lia; kbits; rewrite IHe2 by auto.
    + rewrite IHe1; auto.
    + apply andb_false_r.
  - replace (Z.testbit _ _) with
      (if Z.testbit (k_eval vl n e1) (Z.of_nat i0) then m i0 else Z.testbit (k_eval vl n e2) (Z.of_nat i0)).
    2:{ symmetry. destruct vl; [apply mload_vl_bit|apply mload_bits_bit]; lia. }
    rewrite IHe1, IHe2; auto.
Qed.

(* ------------------------------------------------------------------ *)
(* reductions, for any word k and the list l of its low n bits *)
Definition shows (n : nat) (k : Z) (l : list bool) : Prop :=
  0 <= k < 2 ^ W n /\ length l = n /\
  forall i, (i < n)%nat -> Z.testbit k (Z.of_nat i) = nth i l false.

Lemma eval_shows vl n e : size_ok n -> kexpr_ok n e -> shows n (k_eval vl n e) (k_meaning n e).
Proof.
  intros. split; [apply eval_bound; auto|]. split; [apply meaning_length; auto|].
  intros. apply eval_low; auto.
Qed.

Lemma forallb_nth l : forallb (fun x : bool => x) l = true <->
  forall i, (i < length l)%nat -> nth i l false = true.
Proof.
  rewrite forallb_forall. split.
  - intros H i Hi. apply H. apply nth_In. auto.
  - intros H x Hx. destruct (In_nth _ _ false Hx) as (i & Hi & <-). auto.
Qed.

Lemma existsb_nth l : existsb (fun x : bool => x) l = true <->
  exists i, (i < length l)%nat /\ nth i l false = true.
Proof.
  rewrite existsb_exists. split.
  - intros (x & Hx & E). destruct (In_nth _ _ false Hx) as (i & Hi & Hn). exists i. subst; auto.
  - intros (i & Hi & E). exists (nth i l false). split; auto using nth_In.
Qed.

(* words compared bit by bit *)
Lemma word_eq w x y : 0 <= x < 2 ^ Z.of_nat w -> 0 <= y < 2 ^ Z.of_nat w ->
  (x =? y) = true <-> forall i, (i < w)%nat -> Z.testbit x (Z.of_nat i) = Z.testbit y (Z.of_nat i).
Proof.
  intros Hx Hy. rewrite Z.eqb_eq. split; [intros ->; auto|].
  intros H. apply Z.bits_inj'. intros j Hj.
  destruct (Z_lt_le_dec j (Z.of_nat w)).
  - rewrite <- (Z2Nat.id j) by lia. apply H. lia.
  - rewrite !(testbit_above _ (Z.of_nat w)) by auto. auto.
Qed.

Lemma ones_bound w : 0 <= Z.ones (Z.of_nat w) < 2 ^ Z.of_nat w.
Proof. rewrite Z.ones_equiv. pose proof (Z.pow_pos_nonneg 2 (Z.of_nat w)). lia. Qed.

Lemma kortestc_bits w a b : 0 <= a -> 0 <= b ->
  kortestc w a b = true <->
  forall i, (i < w)%nat -> (Z.testbit a (Z.of_nat i) || Z.testbit b (Z.of_nat i))%bool = true.
Proof.
  intros Ha Hb. unfold kortestc. pose proof (ones_bound w) as Ho.
  rewrite (word_eq w); auto.
  2:{ rewrite Z.land_comm. apply land_bound; auto; [lia|]. apply Z.lor_nonneg; auto. }
  split; intros H i Hi; specialize (H i Hi); rewrite Z.land_spec, Z.lor_spec, testbit_ones in * by lia;
    replace (Z.of_nat i <? Z.of_nat w) with true in * by (symmetry; apply Z.ltb_lt; lia);
    rewrite andb_true_r in *; auto.
Qed.

Lemma full_implicit n : size_ok n -> implicit_mask n = Z.ones (W n) -> n = kw n.
Proof.
  intros Hn E. pose proof (kw_ge n Hn) as [H1 _].
  destruct (Nat.eq_dec n (kw n)) as [|Hne]; auto. exfalso.
  assert (Hb : Z.testbit (implicit_mask n) (Z.of_nat n) = false).
  { rewrite implicit_bit by (auto; lia). apply Nat.ltb_irrefl. }
  rewrite E, testbit_ones in Hb by lia. apply Z.ltb_ge in Hb. lia.
Qed.

Lemma all_of_spec dq n k l : size_ok n -> shows n k l -> k_all_of dq n k = all_true l.
Proof.
  intros Hn (Hb & Hl & Hk). pose proof (kw_ge n Hn) as [Hw H8].
  apply eq_true_iff_eq. unfold all_true. rewrite forallb_nth, Hl.
  assert (Hcomp : forall w b, (n <= w)%nat -> 0 <= b ->
    (forall i, (i < w)%nat -> Z.testbit b (Z.of_nat i) = negb (i <? n)%nat) ->
    (forall i, (i < w)%nat -> (Z.testbit k (Z.of_nat i) || Z.testbit b (Z.of_nat i))%bool = true) <->
    (forall i, (i < n)%nat -> nth i l false = true)).
  { intros w b Hnw Hb0 Hbit. split; intros H i Hi.
    - specialize (H i ltac:(lia)). rewrite Hbit in H by lia. rewrite <- Hk by auto.
      replace (i <? n)%nat with true in H by (symmetry; apply Nat.ltb_lt; auto).
      cbn [negb] in H. rewrite orb_false_r in H. auto.
    - rewrite Hbit by auto. destruct (Nat.ltb_spec i n); cbn [negb]; [|apply orb_true_r].
      rewrite orb_false_r, Hk; auto. }
  assert (Hnot : forall i, (i < kw n)%nat ->
            Z.testbit (kword n (Z.lnot (implicit_mask n))) (Z.of_nat i) = negb (i <? n)%nat).
  { intros i Hi. rewrite kword_bit by auto. rewrite Z.lnot_spec by lia. rewrite implicit_bit; auto. }
  assert (Hself : n = kw n ->
    (forall i, (i < kw n)%nat -> (Z.testbit k (Z.of_nat i) || Z.testbit k (Z.of_nat i))%bool = true) <->
    (forall i, (i < n)%nat -> nth i l false = true)).
  { intros E. split; intros H i Hi.
    - specialize (H i ltac:(lia)). rewrite orb_diag in H. rewrite <- Hk; auto.
    - rewrite orb_diag, Hk by lia. apply H. lia. }
  unfold k_all_of. cbv zeta.
  destruct (Nat.eqb_spec (kw n) 8) as [E8|E8].
  - destruct dq.
    + rewrite kortestc_bits; [|lia|].
      2:{ destruct (_ =? 255); [lia|]. apply kword_bound. }
      rewrite <- E8. destruct (Z.eqb_spec (implicit_mask n) 255) as [E|E].
      * apply Hself. apply full_implicit; auto. rewrite E8. auto.
      * apply Hcomp; auto. apply kword_bound.
    + rewrite kortestc_bits by (try lia; apply Z.mod_pos_bound; lia).
      apply Hcomp; [lia|apply Z.mod_pos_bound; lia|].
      intros i Hi. change 16 with (Z.of_nat 16). rewrite Z.mod_pow2_bits_low by lia.
      rewrite Z.lnot_spec by lia. f_equal.
      destruct (le_lt_dec (kw n) i) as [Hi'|Hi'].
      * rewrite (testbit_above _ (W n)) by (try apply implicit_bound; lia).
        symmetry. apply Nat.ltb_ge. lia.
      * apply implicit_bit; auto.
  - rewrite kortestc_bits; [|lia|].
    2:{ destruct (_ =? Z.ones _); [lia|]. apply kword_bound. }
    destruct (Z.eqb_spec (implicit_mask n) (Z.ones (W n))) as [E|E].
    + apply Hself. apply full_implicit; auto.
    + apply Hcomp; auto. apply kword_bound.
Qed.

Lemma any_of_spec n k l : size_ok n -> shows n k l -> k_any_of n k = any_true l.
Proof.
  intros Hn (Hb & Hl & Hk). pose proof (kw_ge n Hn) as [Hw H8].
  unfold k_any_of, any_true.
  assert (Hz : (Z.land k (implicit_mask n) =? 0) = true <->
               existsb (fun x : bool => x) l = false).
  { rewrite (word_eq (kw n)).
    2:{ apply land_bound; [lia|auto|apply implicit_bound]. }
    2:{ split; [lia|apply Z.pow_pos_nonneg; lia]. }
    rewrite <- not_true_iff_false, existsb_nth, Hl. split.
    - intros H (i & Hi & E). specialize (H i ltac:(lia)).
      rewrite Z.land_spec, implicit_bit, Z.bits_0 in H by (auto; lia).
      replace (i <? n)%nat with true in H by (symmetry; apply Nat.ltb_lt; auto).
      rewrite Hk, E in H by auto. discriminate.
    - intros H i Hi. rewrite Z.land_spec, implicit_bit, Z.bits_0 by auto.
      destruct (Nat.ltb_spec i n); [|apply andb_false_r].
      rewrite Hk by auto. destruct (nth i l false) eqn:E; auto. exfalso. eauto. }
  destruct (Z.land k (implicit_mask n) =? 0), (existsb (fun x : bool => x) l); cbn; auto.
  - destruct Hz as [Hz _]. discriminate Hz; auto.
  - destruct Hz as [_ Hz]. discriminate Hz; auto.
Qed.

Lemma none_of_spec n k l : size_ok n -> shows n k l -> k_none_of n k = negb (any_true l).
Proof.
  intros. rewrite <- (any_of_spec n k) by auto. unfold k_none_of, k_any_of.
  rewrite negb_involutive. auto.
Qed.

Lemma some_of_spec dq n k l : size_ok n -> shows n k l ->
  k_some_of dq n k = (any_true l && negb (all_true l))%bool.
Proof.
  intros. unfold k_some_of. rewrite (any_of_spec n k l), (all_of_spec dq n k l); auto.
Qed.

Lemma count_bits_list (f : nat -> bool) n w : (n <= w)%nat ->
  count_true (map (fun i => f i && (i <? n)%nat)%bool (seq 0 w)) = count_true (map f (seq 0 n)).
Proof.
  intros H. replace w with (n + (w - n))%nat by lia.
  rewrite seq_app, map_app, count_true_app.
  rewrite (count_true_false (seq (0 + n) _)).
  - rewrite Nat.add_0_r. f_equal. apply map_ext_in. intros i Hi. apply in_seq in Hi.
    replace (i <? n)%nat with true by (symmetry; apply Nat.ltb_lt; lia). apply andb_true_r.
  - intros i Hi. apply in_seq in Hi.
    replace (i <? n)%nat with false by (symmetry; apply Nat.ltb_ge; lia). apply andb_false_r.
Qed.

Lemma list_of_bits n k l : shows n k l -> l = map (fun i => Z.testbit k (Z.of_nat i)) (seq 0 n).
Proof.
  intros (_ & Hl & Hk). apply (nth_eq_ext _ _ false); [rewrite map_length, seq_length; auto|].
  intros i Hi. rewrite nth_map_seq by lia. rewrite Hk; auto. cbn. lia.
Qed.

Lemma popcount_spec n k l : size_ok n -> shows n k l -> k_popcount n k = count_true l.
Proof.
  intros Hn Hs. pose proof (kw_ge n Hn) as [Hw H8]. destruct (Hs) as (Hb & _ & _).
  unfold k_popcount. rewrite (popcount_bits (kw n)) by (apply masked_bound; auto).
  rewrite (list_of_bits n k l Hs).
  rewrite <- (count_bits_list (fun i => Z.testbit k (Z.of_nat i)) n (kw n)) by auto.
  f_equal. apply map_ext. intros i. apply masked_bit; auto.
Qed.

Lemma find_first_spec n k l : size_ok n -> shows n k l -> any_true l = true ->
  is_first_true l (k_find_first_set n k).
Proof.
  intros Hn (Hb & Hl & Hk) Ha. unfold any_true in Ha. rewrite existsb_nth in Ha.
  destruct Ha as (i & Hi & E). rewrite Hl in Hi. rewrite <- Hk in E by auto.
  unfold k_find_first_set, countr_zero.
  destruct k as [|p|p]; [rewrite Z.bits_0 in E; discriminate| |lia].
  destruct (ctz_spec p) as [H1 H2].
  assert (ctz_pos p < n)%nat.
  { destruct (le_lt_dec n (ctz_pos p)) as [H|H]; auto.
    rewrite H2 in E by lia. discriminate. }
  split.
  - rewrite (nth_error_nth' l false) by lia. rewrite <- Hk by auto. rewrite H1. auto.
  - intros j Hj. rewrite (nth_error_nth' l false) by lia. rewrite <- Hk by lia. rewrite H2; auto.
Qed.

Lemma find_last_spec n k l : size_ok n -> shows n k l ->
  (forall i, (n <= i)%nat -> (i < kw n)%nat -> Z.testbit k (Z.of_nat i) = false) ->
  any_true l = true ->
  exists i, k_find_last_set k = Z.of_nat i /\ is_last_true l i.
Proof.
  intros Hn (Hb & Hl & Hk) Hc Ha. unfold any_true in Ha. rewrite existsb_nth in Ha.
  destruct Ha as (i & Hi & E). rewrite Hl in Hi. rewrite <- Hk in E by auto.
  unfold k_find_last_set, bit_width.
  destruct (Z.eqb_spec k 0) as [->|Hz]; [rewrite Z.bits_0 in E; discriminate|].
  assert (Hp : 0 < k) by lia. pose proof (Z.log2_nonneg k).
  pose proof (Z.bit_log2 k Hp) as Htop.
  assert (Hlt : Z.log2 k < W n) by (apply Z.log2_lt_pow2; lia).
  exists (Z.to_nat (Z.log2 k)). split; [lia|].
  assert (Z.log2 k < Z.of_nat n).
  { destruct (Z_lt_le_dec (Z.log2 k) (Z.of_nat n)); auto.
    specialize (Hc (Z.to_nat (Z.log2 k))). rewrite Z2Nat.id in Hc by lia.
    rewrite Hc in Htop by lia. discriminate. }
  split.
  - rewrite (nth_error_nth' l false) by lia. rewrite <- Hk by lia. rewrite Z2Nat.id by lia.
    rewrite Htop. auto.
  - intros j Hj Hjl. rewrite (nth_error_nth' l false) by lia. rewrite <- Hk by lia.
    rewrite Z.bits_above_log2 by lia. auto.
Qed.

(* ------------------------------------------------------------------ *)
(* C21 *)
Lemma c21_elements vl n e : size_ok n -> kexpr_ok n e ->
  map (k_get (k_eval vl n e)) (seq 0 n) = k_meaning n e.
Proof.
  intros Hn He. pose proof (eval_shows vl n e Hn He) as Hs.
  rewrite (list_of_bits _ _ _ Hs) at 1. apply map_ext. intros. apply k_get_bit.
Qed.

Lemma c21_find_last_refuted vl n l : size_ok n -> (n < kw n)%nat -> (n <= length l <= kw n)%nat ->
  let r := k_find_last_set (k_eval vl n (KIntNe l)) in r = W n - 1 /\ Z.of_nat n <= r.
Proof.
  intros Hn Hlt Hl. cbv zeta. assert (Z.of_nat n <= W n - 1) by lia.
  cut (k_find_last_set (k_eval vl n (KIntNe l)) = W n - 1); [intros ->; auto|].
  cbn [k_eval]. set (k := k_int_not_equal n l).
  assert (Hb : 0 <= k < 2 ^ W n) by apply kword_bound.
  assert (Ht : Z.testbit k (W n - 1) = true).
  { replace (W n - 1) with (Z.of_nat (kw n - 1)) by lia. unfold k, k_int_not_equal.
    rewrite kword_bit by lia. kbits. rewrite implicit_bit by (auto; lia).
    replace (kw n - 1 <? n)%nat with false by (symmetry; apply Nat.ltb_ge; lia). auto. }
  unfold k_find_last_set, bit_width. destruct (Z.eqb_spec k 0) as [E|E].
  - rewrite E, Z.bits_0 in Ht. discriminate.
  - assert (Z.log2 k < W n) by (apply Z.log2_lt_pow2; lia).
    destruct (Z_lt_le_dec (Z.log2 k) (W n - 1)); [|lia].
    rewrite Z.bits_above_log2 in Ht by lia. discriminate.
Qed.

Lemma filter_ext_seq (f g : nat -> bool) n : (forall i, (i < n)%nat -> f i = g i) ->
  filter f (seq 0 n) = filter g (seq 0 n).
Proof. intros. apply filter_ext_in. intros i Hi. apply in_seq in Hi. apply H. lia. Qed.

Lemma c21_touched vl n e : size_ok n -> kexpr_ok n e -> cleans e ->
  k_touched n (k_eval vl n e) = true_indices (k_meaning n e).
Proof.
  intros Hn He Hc. pose proof (kw_ge n Hn) as [Hw _].
  unfold k_touched, true_indices. rewrite meaning_length by auto.
  replace (kw n) with (n + (kw n - n))%nat at 1 by lia.
  rewrite seq_app, filter_app. rewrite (filter_none _ (seq (0 + n) _)).
  - rewrite app_nil_r. apply filter_ext_seq. intros i Hi. rewrite k_get_bit. apply eval_low; auto.
  - intros i Hi. apply in_seq in Hi. rewrite k_get_bit. apply eval_high; auto; lia.
Qed.

Lemma c21_touched_refuted vl n l : size_ok n -> (n < kw n)%nat -> (n <= length l <= kw n)%nat ->
  In n (k_touched n (k_eval vl n (KIntNe l))).
Proof.
  intros Hn Hlt Hl. unfold k_touched. apply filter_In. split; [apply in_seq; lia|].
  rewrite k_get_bit. cbn [k_eval]. unfold k_int_not_equal.
  rewrite kword_bit by lia. kbits. rewrite implicit_bit by (auto; lia).
  rewrite Nat.ltb_irrefl. auto.
Qed.

Lemma c21_store vl n v k m : size_ok n -> kexpr_ok n v -> kexpr_ok n k -> cleans k ->
  forall i, k_masked_store n (k_eval vl n v) (k_eval vl n k) m i =
    match nth_error (k_meaning n k) i with
    | Some true => nth_error (k_meaning n v) i
    | _ => m i
    end.
Proof.
  intros Hn Hv Hk Hc i. pose proof (kw_ge n Hn) as [Hw _]. unfold k_masked_store.
  rewrite !k_get_bit.
  destruct (le_lt_dec n i) as [Hi|Hi].
  - rewrite (proj2 (nth_error_None _ _)) by (rewrite meaning_length; auto).
    destruct (Nat.ltb_spec i (kw n)); cbn [andb]; auto.
    rewrite eval_high; auto.
  - rewrite !(nth_error_nth' _ false) by (rewrite meaning_length; auto).
    replace (i <? kw n)%nat with true by (symmetry; apply Nat.ltb_lt; lia). cbn [andb].
    rewrite !eval_low by auto. destruct (nth i (k_meaning n k) false); auto.
Qed.
