(* Proofs about the comparison operators *)
From Coq Require Import ZArith List Bool Lia Arith.
From Verif Require Import Prelude X86Lanes FloatSpec FloatBits KMask KMaskSpec KMaskProofs X86Mask X86MaskSpec X86MaskProofs Where WhereSpec Compare CompareSpec BoolStoreProofs.
Import ListNotations.
Local Open Scope Z_scope.

Lemma number_sgn w x : number true w x = sgn w x.
Proof. reflexivity. Qed.
Lemma number_inj sg w x y : 0 < w -> 0 <= x < 2 ^ w -> 0 <= y < 2 ^ w -> (number sg w x =? number sg w y) = (x =? y).
Proof.
  intros W X Y. unfold number. destruct sg; auto.
  destruct (Z.eqb_spec x y) as [->|N]; [apply Z.eqb_refl|]. apply Z.eqb_neq.
  destruct (Z.ltb_spec x (2 ^ (w - 1))), (Z.ltb_spec y (2 ^ (w - 1))); lia.
Qed.
(* the operators as members and order *)
Definition args {A} (r : relop) (x y : A) : A * A := if snd (member_of r) then (y, x) else (x, y).
Lemma compare_swap a b : ieee_compare b a = match ieee_compare a b with Some c => Some (CompOpp c) | None => None end.
Proof.
  assert (N : forall u v, num u v = num u v) by auto.
  destruct a as [|[]|[] m], b as [|[]|[] n]; cbn [ieee_compare]; try reflexivity; rewrite <- Z.compare_antisym; reflexivity.
Qed.
Lemma truth_lane r e size x y :
  lane_compare (fst (member_of r)) e size (fst (args r x y)) (snd (args r x y)) = truth r e size x y.
Proof.
  unfold truth, lane_compare, args, size_fmt. destruct e as [sg|].
  - unfold number, sgn. destruct r; cbn [member_of fst snd int_truth]; destruct sg; reflexivity.
  - unfold cmp, compare_lanes. destruct r; cbn [member_of fst snd float_truth].
    1-4: destruct (ieee_compare _ _) as [[]|]; reflexivity.
    all: rewrite (compare_swap (decode _ x)); destruct (ieee_compare _ _) as [[]|]; reflexivity.
Qed.
Lemma map2_nth {C} (g : Z -> Z -> C) xs ys i d : (i < length xs)%nat -> length xs = length ys -> nth i (map2 g xs ys) d = g (nth i xs 0) (nth i ys 0).
Proof.
  revert ys i. induction xs as [|a xs IH]; intros [|b ys] [|i]; cbn [length map2 nth]; intros H L; try lia; auto.
  apply IH; lia.
Qed.
Lemma map2_len {C} (g : Z -> Z -> C) xs ys : length xs = length ys -> length (map2 g xs ys) = length xs.
Proof. revert ys. induction xs as [|a xs IH]; intros [|b ys]; cbn; intros; try lia; auto. Qed.
Lemma truths_len r e s x y : length (truths r e s x y) = sn s.
Proof. unfold truths. rewrite map_length, seq_length. reflexivity. Qed.
Lemma truths_nth r e s x y i : (i < sn s)%nat -> nth i (truths r e s x y) false = truth r e (sz s) (nth i x 0) (nth i y 0).
Proof.
  intros. unfold truths. rewrite (nth_indep _ false (truth r e (sz s) (nth 0 x 0) (nth 0 y 0))) by (rewrite map_length, seq_length; lia).
  rewrite (map_nth (fun i => truth r e (sz s) (nth i x 0) (nth i y 0))). rewrite seq_nth by lia. reflexivity.
Qed.
Lemma ones_range s : 0 <= ones s < 2 ^ (8 * Z.of_nat (sz s)).
Proof. unfold ones, lw. pose proof (Z.pow_pos_nonneg 2 (8 * Z.of_nat (sz s))). lia. Qed.
(* a vector of comparison results *)
Lemma base_holds o e s x y l : register s x -> register s y -> (sn s <= st s)%nat -> length l = sn s ->
  (forall i, (i < sn s)%nat -> nth i l false = lane_compare o e (sz s) (nth i x 0) (nth i y 0)) ->
  holds s (base_compare o e s x y) l.
Proof.
  intros [Lx Rx] [Ly Ry] N Ll H. pose proof (ones_range s) as O. unfold base_compare. repeat split; auto.
  - rewrite map2_len; lia.
  - intros i Hi. rewrite map2_nth, H by lia. reflexivity.
  - rewrite map2_nth by lia. destruct (lane_compare _ _ _ _ _); lia.
  - rewrite map2_nth by lia. destruct (lane_compare _ _ _ _ _); lia.
Qed.
Lemma firstn_map2 {C} (g : Z -> Z -> C) xs ys a b : length xs = length ys -> firstn (length xs) (map2 g (xs ++ a) (ys ++ b)) = map2 g xs ys.
Proof.
  revert ys. induction xs as [|x xs IH]; intros [|y ys] L; cbn in *; try lia; auto. f_equal. apply IH. lia.
Qed.
Lemma wide_base o e s jx jy x y : length x = length y -> wide_compare o e s jx jy x y = base_compare o e s x y.
Proof. intros. unfold wide_compare, base_compare. apply firstn_map2; auto. Qed.
Lemma vector_base o e wide s jx jy x y : length x = length y -> vector_compare o e wide s jx jy x y = base_compare o e s x y.
Proof. intros. unfold vector_compare. destruct o; auto. destruct wide; auto. apply wide_base; auto. Qed.
Lemma vector_ok r e wide s jx jy x y : register s x -> register s y -> (sn s <= st s)%nat ->
  holds s (vector_op r e wide s jx jy x y) (truths r e s x y).
Proof.
  intros X Y N. pose proof X as [Lx _]. pose proof Y as [Ly _].
  assert (E : vector_op r e wide s jx jy x y = base_compare (fst (member_of r)) e s (fst (args r x y)) (snd (args r x y))).
  { unfold vector_op, args. destruct r; cbn [member_of fst snd]; apply vector_base; lia. }
  rewrite E. apply base_holds; auto.
  - unfold args. destruct (snd (member_of r)); auto.
  - unfold args. destruct (snd (member_of r)); auto.
  - apply truths_len.
  - intros i Hi. rewrite truths_nth by auto. rewrite <- truth_lane. unfold args. destruct (snd (member_of r)); reflexivity.
Qed.

(* bits *)
Lemma bits_eq a b n : 0 <= a < 2 ^ Z.of_nat n -> 0 <= b < 2 ^ Z.of_nat n ->
  (forall i, (i < n)%nat -> Z.testbit a (Z.of_nat i) = Z.testbit b (Z.of_nat i)) -> a = b.
Proof.
  intros A B H. apply Z.bits_inj'. intros k K. destruct (Z.ltb_spec k (Z.of_nat n)).
  - rewrite <- (Z2Nat.id k) by lia. apply H. lia.
  - rewrite <- (Z.mod_small a (2 ^ Z.of_nat n)), <- (Z.mod_small b (2 ^ Z.of_nat n)) by auto.
    rewrite !Z.mod_pow2_bits_high by lia. reflexivity.
Qed.
Lemma fold_bits {A} (g : A -> Z) L : forall acc j, Z.testbit (fold_left Z.lor (map g L) acc) j = Z.testbit acc j || existsb (fun p => Z.testbit (g p) j) L.
Proof.
  induction L as [|p L IH]; intros acc j; cbn [map fold_left existsb]; [rewrite orb_false_r; auto|].
  rewrite IH, Z.lor_spec, orb_assoc. reflexivity.
Qed.
Lemma constant_term s i (b : bool) : (1 <= sz s)%nat -> (i < 64)%nat ->
  uns 64 (Z.shiftl (uns 64 (sgn (lw s) (uns (lw s) (- (if b then ones s else 0))))) (Z.of_nat i)) = if b then 2 ^ Z.of_nat i else 0.
Proof.
  intros S I. destruct b.
  - assert (W : 8 <= lw s) by (unfold lw; lia).
    assert (P : 2 ^ lw s = 2 * 2 ^ (lw s - 1)) by (rewrite <- Z.pow_succ_r by lia; f_equal; lia).
    assert (Q : 2 ^ 1 <= 2 ^ (lw s - 1)) by (apply Z.pow_le_mono_r; lia). change (2 ^ 1) with 2 in Q.
    assert (E : uns (lw s) (- ones s) = 1).
    { unfold uns, ones. symmetry. apply (Z.mod_unique _ _ (-1)); lia. }
    rewrite E. unfold sgn. destruct (Z.ltb_spec 1 (2 ^ (lw s - 1))); [|lia].
    change (uns 64 1) with 1. rewrite Z.shiftl_1_l. unfold uns. apply Z.mod_small.
    split; [apply Z.pow_nonneg; lia|apply Z.pow_lt_mono_r; lia].
  - cbn [Z.opp]. assert (E : forall w, uns w 0 = 0) by (intros; unfold uns; apply Zmod_0_l).
    assert (F : sgn (lw s) 0 = 0) by (unfold sgn; pose proof (Z.pow_pos_nonneg 2 (lw s - 1) ltac:(lia) ltac:(unfold lw; lia)); destruct (Z.ltb_spec 0 (2 ^ (lw s - 1))); lia).
    rewrite E, F, E, Z.shiftl_0_l. apply E.
Qed.
Lemma constant_ok s x l : holds s x l -> (1 <= sz s)%nat -> (sn s <= st s)%nat -> (sn s <= 64)%nat -> constant_bits s x = of_lanes l.
Proof.
  intros (Lx & Ll & Hv & _) S N N64. unfold constant_bits.
  set (g := fun p : nat * Z => uns 64 (Z.shiftl (uns 64 (sgn (lw s) (uns (lw s) (- snd p)))) (Z.of_nat (fst p)))).
  assert (G : forall i v, In (i, v) (combine (seq 0 (sn s)) x) -> (i < sn s)%nat /\ g (i, v) = if nth i l false then 2 ^ Z.of_nat i else 0).
  { intros i v I. destruct (In_nth _ _ (0%nat, 0) I) as (j & Hj & E). rewrite combine_length, seq_length in Hj.
    assert (Ej : nth j (combine (seq 0 (sn s)) x) (0%nat, 0) = (j, nth j x 0)).
    { rewrite <- (firstn_skipn (sn s) x) at 1.
      assert (C : combine (seq 0 (sn s)) (firstn (sn s) x ++ skipn (sn s) x) = combine (seq 0 (sn s)) (firstn (sn s) x)).
      { rewrite combine_firstn_l, seq_length. rewrite firstn_app, firstn_firstn, Nat.min_id, firstn_length, Nat.min_l, Nat.sub_diag by lia. cbn [firstn]. rewrite app_nil_r. reflexivity. }
      rewrite C, combine_nth by (rewrite seq_length, firstn_length; lia). rewrite seq_nth by lia. f_equal.
      rewrite <- (firstn_skipn (sn s) x) at 2. rewrite app_nth1 by (rewrite firstn_length; lia). reflexivity. }
    rewrite Ej in E. injection E as <- <-. split; [lia|]. unfold g. cbn [fst snd].
    rewrite (Hv j) by lia. change (2 ^ (8 * Z.of_nat (sz s)) - 1) with (ones s). apply constant_term; lia. }
  assert (G2 : forall i, (i < sn s)%nat -> exists v, In (i, v) (combine (seq 0 (sn s)) x)).
  { intros i Hi. assert (M : In i (map fst (combine (seq 0 (sn s)) x))).
    { rewrite <- (firstn_skipn (sn s) x).
      assert (C : combine (seq 0 (sn s)) (firstn (sn s) x ++ skipn (sn s) x) = combine (seq 0 (sn s)) (firstn (sn s) x)).
      { rewrite combine_firstn_l, seq_length. rewrite firstn_app, firstn_firstn, Nat.min_id, firstn_length, Nat.min_l, Nat.sub_diag by lia. cbn [firstn]. rewrite app_nil_r. reflexivity. }
      rewrite C. assert (Q : forall (a : list nat) (b : list Z), length a = length b -> map fst (combine a b) = a).
      { induction a as [|u a IH]; intros [|w b] Q; cbn in *; try lia; auto. f_equal. apply IH. lia. }
      rewrite Q by (rewrite seq_length, firstn_length; lia). apply in_seq. lia. }
    apply in_map_iff in M. destruct M as ((i' & v) & E & I). cbn in E. subst i'. exists v. exact I. }
  apply Z.bits_inj'. intros k K. rewrite <- (Z2Nat.id k) by lia. set (j := Z.to_nat k).
  rewrite fold_bits, Z.bits_0, of_lanes_bit. cbn [orb].
  destruct (nth j l false) eqn:D.
  - assert (Hj : (j < sn s)%nat) by (destruct (Nat.lt_ge_cases j (sn s)); auto; rewrite nth_overflow in D by lia; discriminate).
    destruct (G2 j Hj) as (v & I). apply existsb_exists. exists (j, v). split; auto. destruct (G j v I) as [_ E].
    rewrite E, D. apply Z.pow2_bits_true. lia.
  - destruct (existsb _ _) eqn:E; auto. apply existsb_exists in E. destruct E as ((i & v) & I & E). destruct (G i v I) as [_ F]. rewrite F in E.
    destruct (nth i l false) eqn:Di; [|rewrite Z.bits_0 in E; discriminate].
    assert (i = j) by (rewrite Z.pow2_bits_eqb in E by lia; apply Z.eqb_eq in E; lia). congruence.
Qed.
Lemma top_ones w : 1 <= w -> Z.testbit (2 ^ w - 1) (w - 1) = true.
Proof. intros. replace (2 ^ w - 1) with (Z.ones w) by (rewrite Z.ones_equiv; lia). apply Z.ones_spec_low. lia. Qed.
Lemma runtime_ok s x l : holds s x l -> (1 <= sz s)%nat -> (sn s <= st s)%nat -> x86_to_bits false s x = of_lanes l.
Proof.
  intros (Lx & Ll & Hv & _) S N. unfold x86_to_bits. cbv zeta. rewrite of_lanes_firstn. f_equal. cbn [andb].
  apply (nth_ext _ _ false false).
  - rewrite firstn_length, map_length. unfold to_intrin. rewrite app_length. lia.
  - intros i Hi. rewrite firstn_length, map_length in Hi. assert (Hn : (i < sn s)%nat) by lia.
    assert (E : nth i (firstn (sn s) (map (msb (lw s)) (to_intrin s x))) false = nth i (map (msb (lw s)) (to_intrin s x)) false).
    { rewrite <- (firstn_skipn (sn s) (map _ _)) at 2. rewrite app_nth1 by (rewrite firstn_length, map_length; lia). reflexivity. }
    rewrite E. rewrite (nth_indep _ false (msb (lw s) 0)) by (rewrite map_length; lia). rewrite map_nth.
    unfold to_intrin. rewrite app_nth1 by lia. rewrite Hv by lia. unfold msb, lw. destruct (nth i l false).
    + apply top_ones. lia.
    + apply Z.bits_0.
Qed.
