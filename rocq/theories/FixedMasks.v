(* C07 and C08: masks of fixed_size simds *)
From Coq Require Import List Arith Bool ZArith Lia.
From Verif Require Import Prelude MaskSpec BitMask BitMaskProofs Abi Fixed FixedSpec FixedProofs FixedApply.
Import ListNotations.

Lemma reg_to_bits_spec n k : 1 <= n -> n <= 64 -> n <= length k ->
  bm_clean n (reg_to_bits n k) /\ forall i, i < n -> bm_bit n (reg_to_bits n k) i = nth i k false.
Proof.
  intros Hn H64 Hk. unfold reg_to_bits.
  destruct (fsm_from_bitset_spec n (firstn n k)) as [H1 H2]; auto.
  { rewrite firstn_length. lia. }
  split; auto. intros i Hi.
  assert (E : nth i (bm_list n (bm_of_ullong n (bits_to_Z (firstn n k)))) false = nth i (firstn n k) false)
    by (unfold fsm_from_bitset in H2; rewrite H2; auto).
  rewrite bm_list_nth, bm_get_bit, nth_firstn_lt in E by (auto; apply H1). auto.
Qed.

Lemma dense_ssize_pos {A} (x : tuple A) : x <> [] -> dense (tshape x) -> 1 <= ssize (tshape x).
Proof.
  destruct x as [|c x]; [congruence|]. intros _ H. rewrite tshape_cons, ssize_cons.
  rewrite tshape_cons in H. destruct H as (H & _). cbn [fst cshape]. lia.
Qed.

Lemma t_test_spec {A} (f : A -> list A -> bool) F (x : tuple A) : lanewise_pred f F ->
  forall more, x <> [] -> dense (tshape x) -> ssize (tshape x) <= 64 ->
  Forall (fun t => tshape t = tshape x) more ->
  bm_clean (ssize (tshape x)) (t_test F x more) /\
  forall i d, i < ssize (tshape x) ->
    bm_bit (ssize (tshape x)) (t_test F x more) i
    = f (nth i (telems x) d) (map (fun t => nth i (telems t) d) more).
Proof.
  intros HF. induction x as [|c x IH]; intros more Hne Hd H64 Hm; [congruence|].
  pose proof (dense_ok _ Hd) as Hok. inversion Hok as [|? ? Hc Hok']; subst.
  assert (Hh : Forall (fun r => length r = length (creg c)) (heads more))
    by (eapply heads_length; exact Hm).
  destruct (HF (csize c) (creg c) (heads more) Hc Hh) as [F1 F2].
  pose proof Hd as Hd'. rewrite tshape_cons in Hd'. destruct Hd' as (D1 & D2 & D3 & D4).
  rewrite tshape_cons, ssize_cons in H64. change (fst (cshape c)) with (csize c) in *.
  destruct (reg_to_bits_spec (csize c) (F (csize c) (creg c) (heads more))) as [R1 R2]; auto; try lia.
  cbn [t_test]. destruct x as [|c2 x].
  - rewrite tshape_cons, ssize_cons. change (fst (cshape c)) with (csize c).
    change (ssize (tshape [])) with 0. rewrite Nat.add_0_r. split; auto.
    intros i d Hi. rewrite R2 by auto. rewrite (F2 i d) by auto.
    rewrite nth_telems_head by auto. f_equal.
    apply (pack_head more (csize c) (length (creg c)) [] i d); auto.
  - set (r := c2 :: x) in *.
    destruct (IH (tails more)) as [I1 I2]; auto; try (unfold r; discriminate); try lia.
    { eapply tails_shape; exact Hm. }
    assert (Hpos : 1 <= ssize (tshape r)).
    { apply dense_ssize_pos; auto. unfold r; discriminate. }
    rewrite tshape_cons, ssize_cons. change (fst (cshape c)) with (csize c).
    rewrite (Nat.add_comm (csize c)).
    destruct (bm_prepend_spec (ssize (tshape r)) (csize c) true true (t_test F r (tails more))
      (reg_to_bits (csize c) (F (csize c) (creg c) (heads more)))) as (P1 & P2 & P3); auto; try lia.
    { apply I1. } { apply R1. }
    split; [apply P2; auto|].
    intros i d Hi. rewrite P3 by auto. destruct (Nat.ltb_spec i (csize c)).
    + rewrite R2 by auto. rewrite (F2 i d) by auto.
      rewrite nth_telems_head by auto. f_equal.
      apply (pack_head more (csize c) (length (creg c)) (tshape r) i d); auto.
    + rewrite (I2 _ d) by lia. rewrite (nth_telems_tail c) by auto. f_equal.
      apply (pack_tail more (csize c) (length (creg c)) (tshape r) i d); auto.
Qed.

(* _S_negate: results of the registers are or-ed at their offsets *)
Lemma negate_loop {A} (f : A -> bool) (F : nat -> list A -> list bool) np (x : tuple A) :
  (forall n reg, n <= length reg -> n <= length (F n reg) /\
     forall i d, i < n -> nth i (F n reg) false = f (nth i reg d)) ->
  1 <= np -> np <= 64 -> forall off bits, dense (tshape x) -> off + ssize (tshape x) = np ->
  bm_clean np bits -> (forall i, off <= i -> i < np -> bm_bit np bits i = false) ->
  let r := t_foreach (fun off n reg bits =>
      bm_or bits (bm_of_ullong np
        (Z.shiftl (bm_to_ullong (reg_to_bits n (F n reg))) (Z.of_nat off) mod 2 ^ 64)%Z)) off x bits in
  bm_clean np r /\ forall i d, i < np ->
    bm_bit np r i = if i <? off then bm_bit np bits i else f (nth (i - off) (telems x) d).
Proof.
  intros HF Hnp H64. induction x as [|c x IH]; intros off bits Hd Hs Hb Hz.
  - cbn [t_foreach]. split; auto. intros i d Hi. change (ssize (tshape [])) with 0 in Hs.
    rewrite (proj2 (Nat.ltb_lt _ _)) by lia. auto.
  - cbn [t_foreach]. pose proof (dense_ok _ Hd) as Hok. inversion Hok as [|? ? Hc Hok']; subst.
    pose proof Hd as Hd'. rewrite tshape_cons in Hd'. destruct Hd' as (D1 & D2 & D3 & D4).
    rewrite tshape_cons, ssize_cons in *. change (fst (cshape c)) with (csize c) in *.
    set (np := off + (csize c + ssize (tshape x))) in *.
    destruct (HF (csize c) (creg c) Hc) as [F1 F2].
    destruct (reg_to_bits_spec (csize c) (F (csize c) (creg c))) as [R1 R2]; auto; try lia.
    set (rb := reg_to_bits (csize c) (F (csize c) (creg c))) in *.
    geom np. pose proof (HGone ltac:(lia)) as Hone.
    pose proof (to_ullong_bound (csize c) rb D1 ltac:(lia) R1) as Hrb.
    assert (Hbit : forall i, i < bm_word_bits np ->
      bm_bit np (bm_of_ullong np (Z.shiftl (bm_to_ullong rb) (Z.of_nat off) mod 2 ^ 64)%Z) i
      = if (off <=? i) && (i <? off + csize c) then bm_bit (csize c) rb (i - off) else false).
    { intros i Hi. destruct (Nat.eq_dec np 1) as [E1|Hne].
      - assert (off = 0 /\ csize c = 1) as [-> Ec] by (unfold np in *; lia).
        rewrite E1 in Hi |- *. change (bm_word_bits 1) with 1 in Hi. assert (i = 0) by lia. subst i.
        rewrite bm_of_ullong_bit1, Ec. cbn [Nat.leb Nat.ltb Nat.add andb]. rewrite Z.shiftl_0_r.
        rewrite Ec in Hrb. rewrite Z.mod_small by (cbn in Hrb |- *; lia).
        unfold bm_to_ullong in *. unfold bm_bit. change (bm_word_bits 1) with 1.
        cbn [Nat.sub Nat.div Nat.divmod fst Nat.modulo snd]. 
        change (Z.of_nat 0) with 0%Z. symmetry. rewrite <- bit01; auto.
      - rewrite bm_of_ullong_bit by auto.
        rewrite (testbit_mod_pow2 _ 64) by lia. rewrite Z.shiftl_spec by lia.
        replace (Z.of_nat i <? 64)%Z with true by (symmetry; apply Z.ltb_lt; lia).
        rewrite andb_true_l.
        destruct (Nat.leb_spec off i); cbn [andb]; [|apply Z.testbit_neg_r; lia].
        replace (Z.of_nat i - Z.of_nat off)%Z with (Z.of_nat (i - off)) by lia.
        destruct (Nat.ltb_spec i (off + csize c)).
        + unfold bm_to_ullong. geom (csize c). apply bm_word0_bit; auto; [apply R1|].
          rewrite HGone0 in HGsw0 by lia. lia.
        + eapply testbit_above; [exact Hrb|lia]. }
    assert (Hw2 : bm_clean np (bm_or bits (bm_of_ullong np (Z.shiftl (bm_to_ullong rb) (Z.of_nat off) mod 2 ^ 64)%Z))).
    { apply word_op_clean with (g := orb); auto; try lia; [apply word_op_or|].
      split; [apply bm_of_ullong_wf; lia|]. intros i Hi. rewrite Hone in Hi.
      rewrite Hbit by lia. replace (i <? off + csize c) with false by (symmetry; apply Nat.ltb_ge; unfold np in *; lia).
      rewrite andb_false_r. auto. }
    assert (Hw1 : forall i, i < np ->
      bm_bit np (bm_or bits (bm_of_ullong np (Z.shiftl (bm_to_ullong rb) (Z.of_nat off) mod 2 ^ 64)%Z)) i
      = if i <? off then bm_bit np bits i else if i <? off + csize c then bm_bit (csize c) rb (i - off) else false).
    { intros i Hi. unfold bm_or. rewrite word_op_bit with (g := orb); auto; try lia.
      2: apply word_op_or. 2: apply Hb. 2: apply bm_of_ullong_wf; lia. 
      rewrite Hbit by lia. destruct (Nat.ltb_spec i off).
      - replace (off <=? i) with false by (symmetry; apply Nat.leb_gt; lia). cbn [andb]. apply orb_false_r.
      - replace (off <=? i) with true by (symmetry; apply Nat.leb_le; lia). cbn [andb].
        rewrite Hz by lia. auto. }
    destruct (IH (off + csize c) _ D4 ltac:(unfold np; lia) Hw2) as [I1 I2].
    { intros i Hi1 Hi2. rewrite Hw1 by auto.
      rewrite (proj2 (Nat.ltb_ge _ _)) by lia. rewrite (proj2 (Nat.ltb_ge _ _)) by lia. auto. }
    split; [exact I1|]. intros i d Hi. rewrite (I2 i d Hi). rewrite Hw1 by auto.
    destruct (Nat.ltb_spec i off).
    + rewrite (proj2 (Nat.ltb_lt _ _)) by lia. auto.
    + destruct (Nat.ltb_spec i (off + csize c)).
      * rewrite R2 by lia. rewrite (F2 _ d) by lia. rewrite nth_telems_head by (auto; lia). auto.
      * rewrite nth_telems_tail by (auto; lia). do 2 f_equal. lia.
Qed.

Lemma fs_negate_spec {A} (f : A -> bool) (F : nat -> list A -> list bool) (x : tuple A) :
  (forall n reg, n <= length reg -> n <= length (F n reg) /\
     forall i d, i < n -> nth i (F n reg) false = f (nth i reg d)) ->
  x <> [] -> dense (tshape x) -> ssize (tshape x) <= 64 ->
  bm_clean (ssize (tshape x)) (fs_negate F x) /\
  forall i d, i < ssize (tshape x) -> bm_bit (ssize (tshape x)) (fs_negate F x) i = f (nth i (telems x) d).
Proof.
  intros HF Hne Hd H64.
  assert (Hpos : 1 <= ssize (tshape x)).
  { apply dense_ssize_pos; auto. }
  unfold fs_negate.
  destruct (negate_loop f F (ssize (tshape x)) x HF Hpos H64 0 (bm_zero (ssize (tshape x))) Hd eq_refl)
    as [N1 N2].
  - apply bm_zero_clean.
  - intros. apply bm_zero_bit.
  - split; auto. intros i d Hi. rewrite (N2 i d Hi). rewrite Nat.sub_0_r. auto.
Qed.

Lemma clean_list_nth n b i : 1 <= n -> bm_clean n b -> i < n -> nth i (bm_list n b) false = bm_bit n b i.
Proof. intros Hn [Hw _] Hi. rewrite bm_list_nth, bm_get_bit; auto. Qed.

(* the register's part of the mask *)
Lemma make_mask_spec np off n bits : 1 <= n -> off + n <= np -> np <= 64 -> bm_clean np bits ->
  length (make_mask np off n bits) = n /\
  forall i, i < n -> nth i (make_mask np off n bits) false = nth (off + i) (bm_list np bits) false.
Proof.
  intros Hn Ho H64 Hb. unfold make_mask, submask. rewrite bm_list_length. split; auto.
  intros i Hi.
  assert (Hwf : bm_wf n (bm_extract np off n bits)) by (apply bm_extract_wf; auto).
  destruct (bm_sanitized_spec n (bm_extract_flag np true off n) (bm_extract np off n bits)) as [S1 S2]; auto.
  { intros Hfl. eapply bm_extract_flag_sound with (san := true); eauto; try lia. apply Hb. }
  rewrite clean_list_nth, S2 by auto. rewrite (clean_list_nth np) by (auto; lia).
  apply bm_extract_bit; auto; try lia. apply Hb.
Qed.

Lemma foreach2_spec {A} (g : bool -> A -> A -> A) (k : list bool) F (x : tuple A) :
  forall off y, Forall chunk_ok x -> tshape y = tshape x ->
  (forall o n a b, 1 <= n -> n <= length a -> length b = length a -> off <= o -> o + n <= off + ssize (tshape x) ->
     length (F o n a b) = length a /\
     forall i d, i < n -> nth i (F o n a b) d = g (nth (o + i) k false) (nth i a d) (nth i b d)) ->
  Forall (fun c => 1 <= csize c) x ->
  tshape (t_foreach2 F off x y) = tshape x /\
  forall i d, i < ssize (tshape x) ->
    nth i (telems (t_foreach2 F off x y)) d = g (nth (off + i) k false) (nth i (telems x) d) (nth i (telems y) d).
Proof.
  induction x as [|c x IH]; intros off y Hok Hy HF Hpos.
  - split; auto. intros i d Hi. change (ssize (tshape [])) with 0 in Hi. lia.
  - destruct y as [|e y]; [discriminate|]. pose proof Hy as Hy'. rewrite !tshape_cons in Hy'.
    injection Hy' as Hy1 Hy2 Hy3. inversion Hok as [|? ? Hc Hok']; subst. inversion Hpos; subst.
    rewrite tshape_cons, ssize_cons in HF. change (fst (cshape c)) with (csize c) in HF.
    destruct (HF off (csize c) (creg c) (creg e)) as [F1 F2]; auto; try lia.
    destruct (IH (off + csize c) y) as [I1 I2]; auto.
    { intros. apply HF; auto; lia. }
    cbn [t_foreach2]. rewrite !tshape_cons, I1. unfold cshape at 1. cbn [csize creg]. rewrite F1. split; auto.
    intros i d Hi. rewrite ssize_cons in Hi. change (fst (cshape c)) with (csize c) in Hi.
    assert (Hok1 : chunk_ok (Chunk (csize c) (F off (csize c) (creg c) (creg e))))
      by (unfold chunk_ok in *; simpl; rewrite F1; auto).
    assert (Hoke : chunk_ok e) by (unfold chunk_ok in *; lia).
    destruct (le_lt_dec (csize c) i).
    + rewrite nth_telems_tail by auto. cbn [csize]. rewrite I2 by lia.
      rewrite (nth_telems_tail c), (nth_telems_tail e) by (auto; lia). rewrite Hy1. f_equal. f_equal. lia.
    + rewrite nth_telems_head by auto. cbn [creg]. rewrite F2 by auto.
      rewrite (nth_telems_head c), (nth_telems_head e) by (auto; lia). auto.
Qed.

Lemma foreach1_spec {A} (g : bool -> A -> A) (k : list bool) F (x : tuple A) :
  forall off, Forall chunk_ok x ->
  (forall o n a, 1 <= n -> n <= length a -> off <= o -> o + n <= off + ssize (tshape x) ->
     length (F o n a) = length a /\
     forall i d, i < n -> nth i (F o n a) d = g (nth (o + i) k false) (nth i a d)) ->
  Forall (fun c => 1 <= csize c) x ->
  tshape (t_foreach1 F off x) = tshape x /\
  forall i d, i < ssize (tshape x) ->
    nth i (telems (t_foreach1 F off x)) d = g (nth (off + i) k false) (nth i (telems x) d).
Proof.
  induction x as [|c x IH]; intros off Hok HF Hpos.
  - split; auto. intros i d Hi. change (ssize (tshape [])) with 0 in Hi. lia.
  - inversion Hok as [|? ? Hc Hok']; subst. inversion Hpos; subst.
    rewrite tshape_cons, ssize_cons in HF. change (fst (cshape c)) with (csize c) in HF.
    destruct (HF off (csize c) (creg c)) as [F1 F2]; auto; try lia.
    destruct (IH (off + csize c)) as [I1 I2]; auto.
    { intros. apply HF; auto; lia. }
    cbn [t_foreach1]. rewrite !tshape_cons, I1. unfold cshape at 1. cbn [csize creg]. rewrite F1. split; auto.
    intros i d Hi. rewrite ssize_cons in Hi. change (fst (cshape c)) with (csize c) in Hi.
    assert (Hok1 : chunk_ok (Chunk (csize c) (F off (csize c) (creg c))))
      by (unfold chunk_ok in *; simpl; rewrite F1; auto).
    destruct (le_lt_dec (csize c) i).
    + rewrite nth_telems_tail by auto. cbn [csize]. rewrite I2 by lia.
      rewrite (nth_telems_tail c) by (auto; lia). f_equal. f_equal. lia.
    + rewrite nth_telems_head by auto. cbn [creg]. rewrite F2 by auto.
      rewrite (nth_telems_head c) by (auto; lia). auto.
Qed.

Lemma dense_pos {A} (x : tuple A) : dense (tshape x) -> Forall (fun c => 1 <= csize c) x.
Proof. induction x as [|c x IH]; auto. rewrite tshape_cons. intros (H1 & _ & _ & H4). constructor; auto. Qed.

Lemma masked_binary_spec {A} (f : A -> A -> A) op bits (x y : tuple A) : lanewise_masked2 f op ->
  dense (tshape x) -> ssize (tshape x) <= 64 -> tshape y = tshape x -> bm_clean (ssize (tshape x)) bits ->
  tshape (fs_masked_binary op bits x y) = tshape x /\
  forall i d, i < ssize (tshape x) ->
    nth i (telems (fs_masked_binary op bits x y)) d
    = if nth i (bm_list (ssize (tshape x)) bits) false then f (nth i (telems x) d) (nth i (telems y) d)
      else nth i (telems x) d.
Proof.
  intros HF Hd H64 Hy Hb. unfold fs_masked_binary.
  apply (foreach2_spec (fun k a b => if k then f a b else a) (bm_list (ssize (tshape x)) bits)); auto.
  - apply dense_ok; auto.
  - intros o n a b Hn Ha Hba _ Ho. rewrite Nat.add_0_l in Ho.
    destruct (make_mask_spec (ssize (tshape x)) o n bits) as [M1 M2]; auto.
    destruct (HF n (make_mask (ssize (tshape x)) o n bits) a b Ha Hba M1) as [F1 F2].
    split; auto. intros i d Hi. rewrite F2, M2 by auto. auto.
  - apply dense_pos; auto.
Qed.
Lemma masked_scalar_spec {A S} (f : A -> S -> A) op bits (x : tuple A) s : lanewise_masked1 f op ->
  dense (tshape x) -> ssize (tshape x) <= 64 -> bm_clean (ssize (tshape x)) bits ->
  tshape (fs_masked_scalar op bits x s) = tshape x /\
  forall i d, i < ssize (tshape x) ->
    nth i (telems (fs_masked_scalar op bits x s)) d
    = if nth i (bm_list (ssize (tshape x)) bits) false then f (nth i (telems x) d) s
      else nth i (telems x) d.
Proof.
  intros HF Hd H64 Hb. unfold fs_masked_scalar.
  apply (foreach1_spec (fun k a => if k then f a s else a) (bm_list (ssize (tshape x)) bits)); auto.
  - apply dense_ok; auto.
  - intros o n a Hn Ha _ Ho. rewrite Nat.add_0_l in Ho.
    destruct (make_mask_spec (ssize (tshape x)) o n bits) as [M1 M2]; auto.
    destruct (HF n (make_mask (ssize (tshape x)) o n bits) a s Ha M1) as [F1 F2].
    split; auto. intros i d Hi. rewrite F2, M2 by auto. auto.
  - apply dense_pos; auto.
Qed.
Lemma wrapped_foreach1 {A} F : forall (x : tuple A) off,
  apply_wrapped (fun o n a _ => F o n a) off x [] = t_foreach1 F off x.
Proof. induction x; intros; simpl; auto. rewrite <- IHx. auto. Qed.
Lemma masked_unary_spec {A} (f : A -> A) op bits (x : tuple A) :
  lanewise_masked1 (fun a (_ : unit) => f a) (fun n k a _ => op n k a) ->
  dense (tshape x) -> ssize (tshape x) <= 64 -> bm_clean (ssize (tshape x)) bits ->
  tshape (fs_masked_unary op bits x) = tshape x /\
  forall i d, i < ssize (tshape x) ->
    nth i (telems (fs_masked_unary op bits x)) d
    = if nth i (bm_list (ssize (tshape x)) bits) false then f (nth i (telems x) d)
      else nth i (telems x) d.
Proof.
  intros HF Hd H64 Hb. unfold fs_masked_unary.
  rewrite (wrapped_foreach1 (fun o n a => op n (make_mask (ssize (tshape x)) o n bits) a)).
  exact (masked_scalar_spec (fun a _ => f a) (fun n k a _ => op n k a) bits x tt HF Hd H64 Hb).
Qed.
