(* The comparison operators for AVX-512 masks, and operator! *)
From Coq Require Import ZArith List Bool Lia Arith.
From Verif Require Import Prelude X86Lanes FloatSpec FloatBits KMask KMaskSpec KMaskProofs X86Mask X86MaskSpec X86MaskProofs Where WhereSpec Compare CompareSpec CompareProofs.
From Verif Require BoolStoreProofs.
Import ListNotations.
Local Open Scope Z_scope.

Lemma zmm_size e s : elem_ok e (sz s) -> zmm_shape s -> size_ok (sn s) /\ (1 <= sz s)%nat.
Proof.
  intros E (B & N & R). assert (1 <= sz s)%nat by (destruct e; cbn in E; lia). split; auto.
  unfold size_ok. split; [lia|]. assert (rl s * 1 <= rl s * sz s)%nat by (apply Nat.mul_le_mono_l; auto). lia.
Qed.
Lemma masked_bits n l l' : size_ok n -> length l = n -> (n <= length l')%nat -> (forall i, (i < n)%nat -> nth i l false = nth i l' false) ->
  Z.land (implicit_mask n) (of_lanes l') = of_lanes l.
Proof.
  intros N L L' H. pose proof (kw_ge n N) as [K _]. pose proof (implicit_bound n) as B.
  assert (E : implicit_mask n = Z.ones (Z.of_nat n)).
  { apply (bits_eq _ _ (kw n)); auto.
    - rewrite Z.ones_equiv. pose proof (Z.pow_pos_nonneg 2 (Z.of_nat n)). assert (2 ^ Z.of_nat n <= 2 ^ W n) by (apply Z.pow_le_mono_r; lia). lia.
    - intros i Hi. rewrite implicit_bit by auto. rewrite Z.testbit_ones_nonneg by lia. destruct (Nat.ltb_spec i n), (Z.ltb_spec (Z.of_nat i) (Z.of_nat n)); auto; lia. }
  rewrite E, Z.land_comm, Z.ones_equiv. rewrite <- Z.sub_1_r. rewrite of_lanes_firstn. f_equal.
  apply (nth_ext _ _ false false); [rewrite firstn_length; lia|]. intros i Hi. rewrite firstn_length in Hi. rewrite H by lia.
  rewrite <- (firstn_skipn n l') at 2. rewrite app_nth1 by (rewrite firstn_length; lia). reflexivity.
Qed.
Lemma run_ok i s x y l : size_ok (sn s) -> (sn s <= st s)%nat -> register s x -> register s y -> length l = sn s ->
  k_bytes i = Z.of_nat (rl s * sz s) -> k_size i = Z.of_nat (sz s) ->
  (forall j, (j < sn s)%nat -> nth j l false = lane_test (k_test i) (k_size i) (nth j x 0) (nth j y 0)) ->
  run i s (implicit_mask (sn s)) x y = Some (of_lanes l).
Proof.
  intros N NS [Lx _] [Ly _] L B Z H. unfold run. rewrite B, <- Z, !Z.eqb_refl. cbn [andb]. f_equal.
  assert (LI : length (to_intrin s x) = length (to_intrin s y)) by (unfold to_intrin; rewrite !app_length, !repeat_length; lia).
  assert (LG : (sn s <= length (to_intrin s x))%nat) by (unfold to_intrin; rewrite app_length; lia).
  apply masked_bits; auto.
  - rewrite map2_len by auto. exact LG.
  - intros j Hj. rewrite H by auto. rewrite map2_nth by (auto; lia). unfold to_intrin. rewrite !app_nth1 by lia. reflexivity.
Qed.
(* the dispatch finds the instruction for the register and the elements *)
Definition test_of (p : cmp_pred) (t : ktest) (e : celem) : ktest := match e with CFloat => TFloat p | CInt _ => t end.
Definition sg_of (e : celem) : bool := match e with CInt sg => sg | CFloat => false end.
Lemma select_equal_ok p e s : elem_ok e (sz s) -> zmm_shape s ->
  select_equal p e (Z.of_nat (rl s * sz s)) (Z.of_nat (sz s)) = instr (Z.of_nat (rl s * sz s)) (Z.of_nat (sz s)) (test_of p TEqual e).
Proof.
  intros E (B & _). destruct e; cbn in E; repeat (destruct E as [E|E]; [|]); rewrite E in *; destruct B as [B|[B|B]]; rewrite B; reflexivity.
Qed.
Lemma select_less_ok p t e s : elem_ok e (sz s) -> zmm_shape s ->
  select_less p t e (Z.of_nat (rl s * sz s)) (Z.of_nat (sz s)) = instr (Z.of_nat (rl s * sz s)) (Z.of_nat (sz s)) (test_of p (t (sg_of e)) e).
Proof.
  intros E (B & _). destruct e as [[]|]; cbn in E; repeat (destruct E as [E|E]; [|]); rewrite E in *; destruct B as [B|[B|B]]; rewrite B; reflexivity.
Qed.
Lemma size_fmt_z size : (if Z.of_nat size =? 4 then binary32 else binary64) = size_fmt size.
Proof. unfold size_fmt. destruct (Z.eqb_spec (Z.of_nat size) 4), (Nat.eqb_spec size 4); auto; lia. Qed.
(* what an instruction computes on one lane *)
Definition instr_test (o : cop) (e : celem) : ktest :=
  match o with
  | CEq => test_of CMP_EQ_OQ TEqual e | CNe => test_of CMP_NEQ_UQ TEqual e
  | CLt => test_of CMP_LT_OQ (TLess (sg_of e)) e | CLe => test_of CMP_LE_OQ (TLessEqual (sg_of e)) e
  end.
Lemma instr_lane o e size x y : (1 <= size)%nat -> 0 <= x < 2 ^ (8 * Z.of_nat size) -> 0 <= y < 2 ^ (8 * Z.of_nat size) ->
  lane_test (instr_test o e) (Z.of_nat size) x y =
  match o, e with CNe, CInt _ => negb (lane_compare CNe e size x y) | _, _ => lane_compare o e size x y end.
Proof.
  intros S X Y. destruct e as [sg|].
  - pose proof (number_inj sg (8 * Z.of_nat size) x y ltac:(lia) X Y) as I.
    destruct o; cbn [instr_test test_of lane_test lane_compare sg_of]; try (destruct sg; reflexivity).
    + rewrite <- I. destruct sg; reflexivity.
    + rewrite negb_involutive, <- I. destruct sg; reflexivity.
  - destruct o; cbn [instr_test test_of lane_test lane_compare]; rewrite size_fmt_z; reflexivity.
Qed.
Definition exact_bits (r : relop) (e : celem) (kn : known) : bool :=
  match kn, r, e with Unknown, RNotEqual, CInt _ => false | _, _, _ => true end.
Lemma bits_ok r e kn s x y : elem_ok e (sz s) -> zmm_shape s -> register s x -> register s y ->
  exists m, bits_op r e kn s x y = Some m /\
    (exact_bits r e kn = true -> m = of_lanes (truths r e s x y)) /\
    (exact_bits r e kn = false -> m = kword (sn s) (Z.lnot (of_lanes (map negb (truths r e s x y))))).
Proof.
  intros E S X Y. destruct (zmm_size e s E S) as [N Z1]. destruct S as (B & NS & R). assert (S : zmm_shape s) by (repeat split; lia).
  assert (X' : register s (fst (args r x y))) by (unfold args; destruct (snd (member_of r)); auto).
  assert (Y' : register s (snd (args r x y))) by (unfold args; destruct (snd (member_of r)); auto).
  assert (A : bits_op r e kn s x y = bits_compare (fst (member_of r)) e kn s (fst (args r x y)) (snd (args r x y))) by (destruct r; reflexivity).
  assert (TL : length (truths r e s x y) = sn s) by apply truths_len.
  assert (T : forall i, (i < sn s)%nat -> nth i (truths r e s x y) false = lane_compare (fst (member_of r)) e (sz s) (nth i (fst (args r x y)) 0) (nth i (snd (args r x y)) 0)).
  { intros i Hi. rewrite truths_nth by auto. rewrite <- truth_lane. unfold args. destruct (snd (member_of r)); reflexivity. }
  rewrite A. clear A. set (a := fst (args r x y)) in *. set (b := snd (args r x y)) in *. set (l := truths r e s x y) in *.
  assert (HB : holds s (base_compare (fst (member_of r)) e s a b) l) by (apply base_holds; auto; lia).
  assert (RNG : forall i, (i < sn s)%nat -> 0 <= nth i a 0 < 2 ^ (8 * Z.of_nat (sz s)) /\ 0 <= nth i b 0 < 2 ^ (8 * Z.of_nat (sz s))).
  { intros i Hi. split; [apply (proj2 X')|apply (proj2 Y')]; lia. }
  destruct kn.
  2: { eexists. split; [reflexivity|]. split; [|discriminate]. intros _. apply constant_ok; auto; try lia. unfold size_ok in N. lia. }
  2: { eexists. split; [reflexivity|]. split; [|discriminate]. intros _. apply runtime_ok; auto; lia. }
  assert (RUN : forall o l', length l' = sn s -> (forall i, (i < sn s)%nat -> nth i l' false = lane_test (instr_test o e) (Z.of_nat (sz s)) (nth i a 0) (nth i b 0)) ->
    run {| k_bytes := Z.of_nat (rl s * sz s); k_size := Z.of_nat (sz s); k_test := instr_test o e |} s (implicit_mask (sn s)) a b = Some (of_lanes l')).
  { intros o l' L' H. apply run_ok; auto; lia. }
  assert (IL : forall o i, (i < sn s)%nat -> lane_test (instr_test o e) (Z.of_nat (sz s)) (nth i a 0) (nth i b 0) =
    match o, e with CNe, CInt _ => negb (lane_compare CNe e (sz s) (nth i a 0) (nth i b 0)) | _, _ => lane_compare o e (sz s) (nth i a 0) (nth i b 0) end).
  { intros o i Hi. destruct (RNG i Hi). apply instr_lane; auto. }
  unfold bits_compare. cbv zeta. rewrite !select_equal_ok, !select_less_ok by auto. unfold instr.
  destruct (fst (member_of r)) eqn:O.
  - exists (of_lanes l). split; [apply (RUN CEq); auto; intros; rewrite IL, T by auto; reflexivity|].
    split; auto. destruct r; try discriminate O; discriminate.
  - assert (r = RNotEqual) by (destruct r; try discriminate O; auto). destruct e as [sg|].
    + pose proof (RUN CNe (map negb l)) as P. cbn [instr_test] in P. rewrite P.
      * eexists. split; [reflexivity|]. subst r. split; [discriminate|]. auto.
      * rewrite map_length. auto.
      * intros i Hi. rewrite (IL CNe) by auto. rewrite (nth_indep _ false (negb false)) by (rewrite map_length; lia). rewrite map_nth, T by auto. reflexivity.
    + exists (of_lanes l). split; [apply (RUN CNe); auto; intros; rewrite IL, T by auto; reflexivity|].
      split; auto. subst r. discriminate.
  - exists (of_lanes l). split; [apply (RUN CLt); auto; intros; rewrite IL, T by auto; destruct e; reflexivity|].
    split; auto. destruct r; try discriminate O; discriminate.
  - exists (of_lanes l). split; [apply (RUN CLe); auto; intros; rewrite IL, T by auto; destruct e; reflexivity|].
    split; auto. destruct r; try discriminate O; discriminate.
Qed.
Lemma lnot_bits n l : size_ok n -> length l = n -> forall i, (i < kw n)%nat ->
  Z.testbit (kword n (Z.lnot (of_lanes (map negb l)))) (Z.of_nat i) = if (i <? n)%nat then nth i l false else true.
Proof.
  intros N L i Hi. rewrite kword_bit by auto. rewrite Z.lnot_spec by lia. rewrite of_lanes_bit. destruct (Nat.ltb_spec i n).
  - rewrite (nth_indep _ false (negb false)) by (rewrite map_length; lia). rewrite map_nth. apply negb_involutive.
  - rewrite nth_overflow by (rewrite map_length; lia). reflexivity.
Qed.
Lemma bits_core r e kn s x y : elem_ok e (sz s) -> zmm_shape s -> register s x -> register s y ->
  exists m, bits_op r e kn s x y = Some m /\ means s (BMask m) (truths r e s x y) /\ 0 <= m < 2 ^ Z.of_nat (kw (sn s)) /\
    (kn <> Unknown \/ e = CFloat \/ r <> RNotEqual -> m < 2 ^ Z.of_nat (sn s)).
Proof.
  intros E S X Y. destruct (zmm_size e s E S) as [N Z1]. destruct (bits_ok r e kn s x y E S X Y) as (m & Em & H1 & H2).
  exists m. split; auto. cbn [means]. pose proof (truths_len r e s x y) as TL. pose proof (kw_ge _ N) as [K _].
  pose proof (BoolStoreProofs.of_lanes_lt (truths r e s x y)) as OL. rewrite TL in OL.
  assert (P : 2 ^ Z.of_nat (sn s) <= 2 ^ Z.of_nat (kw (sn s))) by (apply Z.pow_le_mono_r; lia).
  destruct (exact_bits r e kn) eqn:D.
  - rewrite (H1 eq_refl). split; [|split; [lia|intros _; lia]]. split; auto. split; auto. intros. apply of_lanes_bit.
  - rewrite (H2 eq_refl). split; [|split; [apply kword_bound|]].
    + split; auto. split; auto. intros i Hi. rewrite (lnot_bits _ _ N TL) by lia. destruct (Nat.ltb_spec i (sn s)); auto; lia.
    + intros [Q|[Q|Q]]; exfalso; destruct kn, r, e; cbn in D; congruence.
Qed.
(* != of integers at run time sets all the bits that stand for no element *)
Lemma stray_core sg s x y : elem_ok (CInt sg) (sz s) -> zmm_shape s -> register s x -> register s y ->
  exists m, bits_op RNotEqual (CInt sg) Unknown s x y = Some m /\ forall i, (sn s <= i < kw (sn s))%nat -> Z.testbit m (Z.of_nat i) = true.
Proof.
  intros E S X Y. destruct (zmm_size _ s E S) as [N Z1]. destruct (bits_ok RNotEqual (CInt sg) Unknown s x y E S X Y) as (m & Em & _ & H2).
  exists m. split; auto. intros i Hi. rewrite (H2 eq_refl). rewrite (lnot_bits _ _ N) by (try apply truths_len; lia). destruct (Nat.ltb_spec i (sn s)); auto; lia.
Qed.
(* operator! *)
Lemma decode_zero size : decode (size_fmt size) 0 = DFin false 0.
Proof. unfold size_fmt. destruct (size =? 4)%nat; reflexivity. Qed.
Lemma zero_truth e size x : (1 <= size)%nat -> 0 <= x < 2 ^ (8 * Z.of_nat size) -> truth REqual e size x 0 = is_zero e size x.
Proof.
  intros S X. destruct e as [sg|]; cbn [truth is_zero int_truth].
  - apply number_inj; try lia.
  - fold (size_fmt size). rewrite decode_zero. destruct (decode (size_fmt size) x) as [|[]|[] m]; cbn [ieee_compare float_truth]; auto;
    cbn [num]; (destruct (Z.eqb_spec m 0) as [->|Q]; [reflexivity|]);
    [destruct (Z.compare_spec (- m) 0)|destruct (Z.compare_spec m 0)]; auto; lia.
Qed.
Lemma zeros_register s n : n = st s -> register s (repeat 0 n).
Proof.
  intros ->. split; [apply repeat_length|]. intros i Hi. rewrite nth_repeat. split; [lia|]. apply Z.pow_pos_nonneg; lia.
Qed.
Lemma zeros_truths e s x : (1 <= sz s)%nat -> (sn s <= st s)%nat -> register s x -> truths REqual e s x (repeat 0 (length x)) = zeros e s x.
Proof.
  intros Z1 N [L R]. unfold truths, zeros. apply map_ext_in. intros i Hi. apply in_seq in Hi. rewrite nth_repeat. apply zero_truth; auto. apply R. lia.
Qed.
Lemma not_vector_core e s x : (1 <= sz s)%nat -> (sn s <= st s)%nat -> register s x -> holds s (vector_not e s x) (zeros e s x).
Proof.
  intros Z1 N X. rewrite <- zeros_truths by auto. pose proof X as [L _].
  assert (V : vector_not e s x = vector_op REqual e false s [] [] x (repeat 0 (length x))).
  { unfold vector_not, vector_op, member_of, vector_compare, base_compare. clear. induction x as [|a x IH]; cbn; auto. f_equal. exact IH. }
  rewrite V. apply vector_ok; auto. apply zeros_register; auto.
Qed.
Lemma not_bits_core e kn s x : elem_ok e (sz s) -> zmm_shape s -> register s x ->
  exists m, bits_not e kn s x = Some m /\ means s (BMask m) (zeros e s x) /\ 0 <= m < 2 ^ Z.of_nat (sn s).
Proof.
  intros E S X. destruct (zmm_size e s E S) as [N Z1]. pose proof X as [L _].
  destruct (bits_core REqual e kn s x (repeat 0 (length x)) E S X (zeros_register s _ L)) as (m & Em & M & B & T).
  exists m. split; [exact Em|]. rewrite zeros_truths in M; auto; [|destruct S; lia]. split; auto. split; [lia|]. apply T. right. right. discriminate.
Qed.
