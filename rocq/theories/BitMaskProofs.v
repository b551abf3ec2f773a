(* Lemmas about the _BitMask model. *)
From Coq Require Import List ZArith Lia Bool Arith.
From Verif Require Import Prelude BitMask MaskSpec.
Import ListNotations.
Local Open Scope nat_scope.
Local Arguments Z.testbit : simpl never.
Local Arguments Z.of_nat : simpl nomatch.

(* ------------------------------------------------------------------ *)
(* widths *)
Lemma div_roundup_spec a b : 0 < b ->
  a <= b * div_roundup a b /\ b * div_roundup a b < a + b.
Proof.
  intros Hb. unfold div_roundup.
  pose proof (Nat.div_mod (a + b - 1) b ltac:(lia)) as H.
  pose proof (Nat.mod_upper_bound (a + b - 1) b ltac:(lia)). lia.
Qed.

Lemma bit_ceil_ge x : 1 <= x -> x <= bit_ceil x.
Proof.
  intros. unfold bit_ceil. destruct (Nat.eq_dec x 1) as [->|]; [simpl; lia|].
  apply Nat.log2_up_spec. lia.
Qed.

Lemma bit_ceil_pos x : 1 <= bit_ceil x.
Proof. unfold bit_ceil. pose proof (Nat.pow_nonzero 2 (Nat.log2_up x)). lia. Qed.

Lemma bit_ceil_le8 x : x <= 8 -> bit_ceil x <= 8.
Proof.
  intros. unfold bit_ceil. change 8 with (2 ^ 3).
  apply Nat.pow_le_mono_r; [lia|].
  change 3 with (Nat.log2_up 8). apply Nat.log2_up_le_mono. lia.
Qed.

Definition w_ n := bm_word_bits n.
Definition s_ n := bm_array_size n.
Definition u_ n := bm_unused_bits n.

Lemma bm_geom n : 1 <= n ->
  0 < bm_word_bits n /\ 1 <= bm_array_size n
  /\ bm_array_size n * bm_word_bits n = n + bm_unused_bits n
  /\ bm_unused_bits n < bm_word_bits n
  /\ (n <> 1 -> bm_word_bits n = bm_word_bytes n * 8)
  /\ (n <= 64 -> bm_array_size n = 1)
  /\ bm_word_bits n <= 64 /\ (64 < n -> bm_word_bits n = 64).
Proof.
  intros Hn.
  unfold bm_word_bits, bm_array_size, bm_unused_bits, bm_word_bytes, bm_nbytes.
  destruct (Nat.eqb_spec n 1) as [->|Hne].
  { unfold div_roundup; simpl. repeat split; intros; lia. }
  unfold bm_array_size, bm_word_bytes, bm_nbytes.
  destruct (Nat.eqb_spec n 1); [lia|].
  destruct (div_roundup_spec n 8 ltac:(lia)) as [H1 H2].
  set (nb := div_roundup n 8) in *.
  assert (1 <= nb) by lia.
  destruct (le_lt_dec nb 8) as [Hle|Hgt].
  - pose proof (bit_ceil_ge nb ltac:(lia)). pose proof (bit_ceil_le8 nb Hle).
    rewrite Nat.min_r by lia.
    set (bc := bit_ceil nb) in *.
    assert (Hs : div_roundup nb bc = 1).
    { destruct (div_roundup_spec nb bc ltac:(lia)) as [Ha Hb].
      assert (div_roundup nb bc < 2) by nia.
      assert (div_roundup nb bc <> 0) by nia. lia. }
    rewrite Hs. repeat split; intros; lia.
  - assert (Hm : Nat.min 8 (bit_ceil nb) = 8).
    { pose proof (bit_ceil_ge nb ltac:(lia)). lia. }
    rewrite Hm.
    destruct (div_roundup_spec nb 8 ltac:(lia)) as [H3 H4].
    repeat split; intros; lia.
Qed.

Ltac geom n :=
  let H := fresh "HG" in
  assert (H : 1 <= n) by lia;
  destruct (bm_geom n H) as (?HGw & ?HGs & ?HGsw & ?HGu & ?HGb & ?HGone & ?HGwle & ?HGbig).

(* ------------------------------------------------------------------ *)
(* representation *)
Lemma wf_nth n b j : bm_wf n b -> (0 <= nth j b 0 < 2 ^ Z.of_nat (bm_word_bits n))%Z.
Proof.
  intros [Hl Hf]. destruct (le_lt_dec (length b) j).
  - rewrite nth_overflow by lia. split; [lia|]. apply Z.pow_pos_nonneg; lia.
  - rewrite Forall_forall in Hf. apply Hf. apply nth_In; lia.
Qed.

Lemma divmod_split w j r : r < w -> (j * w + r) / w = j /\ (j * w + r) mod w = r.
Proof.
  intros. assert (w <> 0) by lia. split.
  - rewrite Nat.add_comm, Nat.div_add, Nat.div_small by lia. lia.
  - rewrite Nat.add_comm, Nat.mod_add, Nat.mod_small by lia. lia.
Qed.

Lemma idx_lt n i : 1 <= n -> i < bm_array_size n * bm_word_bits n ->
  i / bm_word_bits n < bm_array_size n.
Proof.
  intros. geom n. apply Nat.div_lt_upper_bound; lia.
Qed.

Lemma bm_ext n a b : 1 <= n -> bm_wf n a -> bm_wf n b ->
  (forall i, i < bm_array_size n * bm_word_bits n -> bm_bit n a i = bm_bit n b i) ->
  a = b.
Proof.
  intros Hn Ha Hb H. geom n.
  pose proof Ha as [Hla _]. pose proof Hb as [Hlb _].
  apply nth_eq_ext with 0%Z; [lia|]. intros j Hj.
  apply Z.bits_inj'. intros k Hk.
  destruct (Z_lt_le_dec k (Z.of_nat (bm_word_bits n))) as [Hlt|Hge].
  - specialize (H (j * bm_word_bits n + Z.to_nat k)).
    unfold bm_bit in H.
    destruct (divmod_split (bm_word_bits n) j (Z.to_nat k)) as [E1 E2]; [lia|].
    rewrite E1, E2, Z2Nat.id in H by lia. apply H. nia.
  - rewrite !testbit_above with (w := Z.of_nat (bm_word_bits n)); auto;
      apply wf_nth; auto.
Qed.

Lemma testbit_land1 x k : (0 <= k)%Z ->
  negb (Z.land (Z.shiftr x k) 1 =? 0)%Z = Z.testbit x k.
Proof.
  intros Hk.
  replace (Z.land (Z.shiftr x k) 1) with (Z.b2z (Z.testbit x k)).
  { destruct (Z.testbit x k); auto. }
  apply Z.bits_inj'. intros i Hi.
  rewrite Z.land_spec, Z.shiftr_spec by lia.
  change 1%Z with (2 ^ 0)%Z. rewrite testbit_pow2 by lia.
  destruct (Z.eqb_spec 0 i) as [<-|].
  - rewrite Z.add_0_l, andb_true_r. apply Z.b2z_bit0.
  - rewrite andb_false_r. destruct (Z.testbit x k); simpl.
    + change 1%Z with (2 ^ 0)%Z. rewrite testbit_pow2 by lia.
      apply Z.eqb_neq; auto.
    + apply Z.bits_0.
Qed.

Lemma testbit_landpow x k : (0 <= k)%Z ->
  negb (Z.land x (Z.shiftl 1 k) =? 0)%Z = Z.testbit x k.
Proof.
  intros Hk. rewrite Z.shiftl_1_l.
  destruct (Z.testbit x k) eqn:E.
  - apply negb_true_iff, Z.eqb_neq. intros H0.
    assert (Z.testbit (Z.land x (2 ^ k)) k = false) by (rewrite H0; apply Z.bits_0).
    rewrite Z.land_spec, testbit_pow2, E, Z.eqb_refl in H by lia. discriminate.
  - apply negb_false_iff, Z.eqb_eq. apply Z.bits_inj'. intros i Hi.
    rewrite Z.land_spec, testbit_pow2, Z.bits_0 by lia.
    destruct (Z.eqb_spec k i); subst; rewrite ?E, ?andb_false_r; auto.
Qed.

Lemma bit01 x : (0 <= x < 2 ^ 1)%Z -> negb (x =? 0)%Z = Z.testbit x 0.
Proof.
  intros. assert (x = 0 \/ x = 1)%Z as [->| ->] by (change (2^1)%Z with 2%Z in *; lia); auto.
Qed.

Lemma bm_get_bit n b i : 1 <= n -> bm_wf n b -> i < n -> bm_get n b i = bm_bit n b i.
Proof.
  intros Hn Hwf Hi. geom n. unfold bm_get, bm_bit.
  destruct (Nat.eqb_spec n 1) as [->|Hne].
  - assert (i = 0) by lia; subst. change (bm_word_bits 1) with 1. simpl.
    apply bit01. apply (wf_nth 1 b 0 Hwf).
  - rewrite <- HGb by auto.
    destruct (Nat.eqb_spec (bm_array_size n) 1) as [E1|E1].
    + rewrite testbit_land1 by lia.
      rewrite Nat.div_small, Nat.mod_small by lia. auto.
    + rewrite testbit_land1 by lia. auto.
Qed.

Lemma bm_get_const_bit n b i : 1 <= n -> bm_wf n b -> i < n ->
  bm_get_const n b i = bm_bit n b i.
Proof.
  intros Hn Hwf Hi. geom n. unfold bm_get_const, bm_bit.
  destruct (Nat.eqb_spec n 1) as [->|Hne].
  - assert (i = 0) by lia; subst. change (bm_word_bits 1) with 1. simpl.
    rewrite testbit_landpow with (k := 0%Z) by lia. auto.
  - rewrite <- HGb by auto. rewrite testbit_landpow by lia. auto.
Qed.

Lemma bm_list_length n b : length (bm_list n b) = n.
Proof. unfold bm_list. rewrite map_length, seq_length. auto. Qed.

Lemma bm_list_nth n b i d : i < n -> nth i (bm_list n b) d = bm_get n b i.
Proof. intros. unfold bm_list. rewrite nth_map_seq by auto. auto. Qed.

Lemma bm_list_ext n a b : 1 <= n -> bm_clean n a -> bm_clean n b ->
  bm_list n a = bm_list n b -> a = b.
Proof.
  intros Hn [Ha1 Ha2] [Hb1 Hb2] H. apply (bm_ext n); auto. intros i Hi.
  destruct (le_lt_dec n i).
  - rewrite Ha2, Hb2 by lia. auto.
  - rewrite <- !bm_get_bit by auto.
    rewrite <- (bm_list_nth n a i false), <- (bm_list_nth n b i false), H by auto. auto.
Qed.

(* ------------------------------------------------------------------ *)
(* word-wise operators *)
Definition word_op (f : Z -> Z -> Z) (g : bool -> bool -> bool) : Prop :=
  (forall x y i, (0 <= i)%Z -> Z.testbit (f x y) i = g (Z.testbit x i) (Z.testbit y i))
  /\ (forall x y w, 0 <= w -> 0 <= x < 2 ^ w -> 0 <= y < 2 ^ w -> 0 <= f x y < 2 ^ w)%Z
  /\ g false false = false.

Lemma word_op_xor : word_op Z.lxor xorb.
Proof. repeat split; intros; rewrite ?Z.lxor_spec; auto; eapply lxor_bound; eauto. Qed.
Lemma word_op_or : word_op Z.lor orb.
Proof. repeat split; intros; rewrite ?Z.lor_spec; auto; eapply lor_bound; eauto. Qed.
Lemma word_op_and : word_op Z.land andb.
Proof. repeat split; intros; rewrite ?Z.land_spec; auto; eapply land_bound; eauto; lia. Qed.

Lemma Forall_map2 {A B C} (P : A -> Prop) (Q : B -> Prop) (R : C -> Prop) (f : A -> B -> C) l1 l2 :
  Forall P l1 -> Forall Q l2 -> (forall a b, P a -> Q b -> R (f a b)) ->
  Forall R (map2 f l1 l2).
Proof.
  intros H1 H2 H. revert l2 H2. induction H1; intros l2 H2; destruct H2; simpl; auto.
Qed.

Lemma word_op_wf n f g a b : word_op f g -> bm_wf n a -> bm_wf n b -> bm_wf n (map2 f a b).
Proof.
  intros (H1 & H2 & H3) [La Fa] [Lb Fb]. split.
  - rewrite map2_length. lia.
  - eapply Forall_map2; eauto. simpl. intros. apply H2; auto. lia.
Qed.

Lemma word_op_bit n f g a b i : 1 <= n -> word_op f g -> bm_wf n a -> bm_wf n b ->
  bm_bit n (map2 f a b) i = g (bm_bit n a i) (bm_bit n b i).
Proof.
  intros Hn (H1 & H2 & H3) [La Fa] [Lb Fb]. unfold bm_bit.
  destruct (le_lt_dec (length a) (i / bm_word_bits n)).
  - rewrite !nth_overflow by (rewrite ?map2_length; lia). rewrite !Z.bits_0. auto.
  - rewrite map2_nth with (da := 0%Z) (db := 0%Z) by lia. apply H1; lia.
Qed.

Lemma word_op_clean n f g a b : 1 <= n -> word_op f g -> bm_clean n a -> bm_clean n b ->
  bm_clean n (map2 f a b).
Proof.
  intros Hn Hw [Ha1 Ha2] [Hb1 Hb2]. split.
  - eapply word_op_wf; eauto.
  - intros. erewrite word_op_bit; eauto. rewrite Ha2, Hb2 by auto. apply Hw.
Qed.

Lemma map2_map_same {A B C D} (g : B -> C -> D) (f1 : A -> B) (f2 : A -> C) l :
  map2 g (map f1 l) (map f2 l) = map (fun a => g (f1 a) (f2 a)) l.
Proof. induction l; simpl; auto. f_equal; auto. Qed.

Lemma word_op_list n f g a b : 1 <= n -> word_op f g -> bm_wf n a -> bm_wf n b ->
  bm_list n (map2 f a b) = map2 g (bm_list n a) (bm_list n b).
Proof.
  intros Hn Hw Ha Hb. unfold bm_list. rewrite map2_map_same. apply map_ext_in.
  intros i Hi. apply in_seq in Hi.
  rewrite !bm_get_bit; try lia; eauto using word_op_wf.
  eapply word_op_bit; eauto.
Qed.

(* ------------------------------------------------------------------ *)
(* bitmask, not, zero, sanitized *)
Lemma bm_bitmask_ones n : 1 <= n ->
  bm_bitmask n = Z.ones (Z.of_nat (bm_word_bits n - bm_unused_bits n)).
Proof.
  intros. geom n. unfold bm_bitmask. apply Z.bits_inj'. intros i Hi.
  rewrite Z.shiftr_spec, !testbit_ones by lia.
  apply eq_true_iff_eq. rewrite !Z.ltb_lt. lia.
Qed.

Lemma bm_bitmask_bit n k : 1 <= n -> (0 <= k)%Z ->
  Z.testbit (bm_bitmask n) k = (k <? Z.of_nat (bm_word_bits n - bm_unused_bits n))%Z.
Proof. intros. rewrite bm_bitmask_ones by auto. apply testbit_ones; lia. Qed.

Lemma bm_bitmask_bound n : 1 <= n ->
  (0 <= bm_bitmask n < 2 ^ Z.of_nat (bm_word_bits n))%Z.
Proof.
  intros. geom n. rewrite bm_bitmask_ones by auto. rewrite Z.ones_equiv.
  assert (0 < 2 ^ Z.of_nat (bm_word_bits n - bm_unused_bits n))%Z
    by (apply Z.pow_pos_nonneg; lia).
  assert (2 ^ Z.of_nat (bm_word_bits n - bm_unused_bits n) <= 2 ^ Z.of_nat (bm_word_bits n))%Z
    by (apply Z.pow_le_mono_r; lia). lia.
Qed.

Lemma bm_zero_bit n i : bm_bit n (bm_zero n) i = false.
Proof.
  unfold bm_bit, bm_zero.
  replace (nth _ _ _) with 0%Z; [apply Z.bits_0|].
  symmetry. generalize (bm_array_size n) as m. generalize (i / bm_word_bits n) as j.
  induction j; destruct m; simpl; auto.
Qed.

Lemma bm_zero_wf n : bm_wf n (bm_zero n).
Proof.
  split; unfold bm_zero; [apply repeat_length|].
  apply Forall_forall. intros x Hx. apply repeat_spec in Hx. subst.
  split; [lia|]. apply Z.pow_pos_nonneg; lia.
Qed.

Lemma bm_zero_clean n : bm_clean n (bm_zero n).
Proof. split; [apply bm_zero_wf|]. intros; apply bm_zero_bit. Qed.

Lemma nth_app_last {A} (l : list A) x j d k : length l = k ->
  nth j (l ++ [x]) d = if j <? k then nth j l d else if j =? k then x else d.
Proof.
  intros <-. destruct (Nat.ltb_spec j (length l)).
  - apply app_nth1; auto.
  - rewrite app_nth2 by auto. destruct (Nat.eqb_spec j (length l)).
    + subst. rewrite Nat.sub_diag. auto.
    + destruct (j - length l) eqn:E; [lia|]. simpl. destruct n0; auto.
Qed.

Lemma bm_not_wf n san b : 1 <= n -> bm_wf n b -> bm_wf n (bm_not n san b).
Proof.
  intros Hn Hwf. geom n. unfold bm_not.
  destruct (Nat.eqb_spec n 1) as [->|Hne].
  - split; [reflexivity|]. constructor; auto. change (Z.of_nat (bm_word_bits 1)) with 1%Z.
    destruct (nth 0 b 0 =? 0)%Z; lia.
  - split.
    + rewrite app_length, map_length, seq_length. simpl. lia.
    + apply Forall_app. split.
      * apply Forall_forall. intros x Hx. apply in_map_iff in Hx as (j & <- & _).
        apply mod_pow2_bound; lia.
      * constructor; auto. destruct san.
        -- apply lxor_bound; [lia|apply wf_nth; auto|apply bm_bitmask_bound; auto].
        -- apply mod_pow2_bound; lia.
Qed.

Lemma pow2_word_pos n : (0 < 2 ^ Z.of_nat (bm_word_bits n))%Z.
Proof. apply Z.pow_pos_nonneg; lia. Qed.

Lemma bm_not_bit n san b i : 1 <= n -> bm_wf n b ->
  i < bm_array_size n * bm_word_bits n ->
  bm_bit n (bm_not n san b) i =
    if (i <? n) then negb (bm_bit n b i)
    else (if san then bm_bit n b i else negb (bm_bit n b i)).
Proof.
  intros Hn Hwf Hi. geom n. unfold bm_not.
  destruct (Nat.eqb_spec n 1) as [->|Hne].
  { change (bm_array_size 1 * bm_word_bits 1) with 1 in *.
    assert (i = 0) by lia; subst. simpl. unfold bm_bit.
    change (bm_word_bits 1) with 1. simpl.
    rewrite <- (bit01 (nth 0 b 0%Z)) by apply (wf_nth 1 b 0 Hwf).
    destruct (nth 0 b 0 =? 0)%Z; auto. }
  assert (Hj : i / bm_word_bits n < bm_array_size n) by (apply idx_lt; auto).
  assert (Hr : i mod bm_word_bits n < bm_word_bits n) by (apply Nat.mod_upper_bound; lia).
  pose proof (Nat.div_mod i (bm_word_bits n) ltac:(lia)) as Hdm.
  unfold bm_bit.
  rewrite nth_app_last with (k := bm_array_size n - 1)
    by (rewrite map_length, seq_length; auto).
  set (j := i / bm_word_bits n) in *. set (r := i mod bm_word_bits n) in *.
  assert (Hlnot : forall x, Z.testbit (Z.lnot x mod 2 ^ Z.of_nat (bm_word_bits n)) (Z.of_nat r)
                       = negb (Z.testbit x (Z.of_nat r))).
  { intros. rewrite testbit_mod_pow2, Z.lnot_spec by lia.
    replace (Z.of_nat r <? Z.of_nat (bm_word_bits n))%Z with true; auto.
    symmetry. apply Z.ltb_lt. lia. }
  destruct (Nat.ltb_spec j (bm_array_size n - 1)) as [Hlt|Hge].
  - rewrite nth_map_seq by auto. rewrite Hlnot, Nat.add_0_l.
    replace (i <? n) with true; auto. symmetry. apply Nat.ltb_lt. nia.
  - destruct (Nat.eqb_spec j (bm_array_size n - 1)) as [Ej|]; [|lia].
    rewrite Ej. destruct san.
    + rewrite Z.lxor_spec, bm_bitmask_bit by lia.
      destruct (Nat.ltb_spec i n).
      * replace (Z.of_nat r <? _)%Z with true; [rewrite xorb_true_r; auto|].
        symmetry. apply Z.ltb_lt. nia.
      * replace (Z.of_nat r <? _)%Z with false; [rewrite xorb_false_r; auto|].
        symmetry. apply Z.ltb_ge. nia.
    + rewrite Hlnot. destruct (i <? n); auto.
Qed.

Lemma bm_not_clean n b : 1 <= n -> bm_clean n b -> bm_clean n (bm_not n true b).
Proof.
  intros Hn [H1 H2]. split; [apply bm_not_wf; auto|].
  intros i Hi. rewrite bm_not_bit by (auto; lia).
  destruct (Nat.ltb_spec i n); [lia|]. apply H2; lia.
Qed.

Lemma bm_not_list n san b : 1 <= n -> bm_wf n b ->
  bm_list n (bm_not n san b) = map negb (bm_list n b).
Proof.
  intros Hn Hwf. geom n. unfold bm_list. rewrite map_map. apply map_ext_in.
  intros i Hi. apply in_seq in Hi.
  rewrite !bm_get_bit by (auto using bm_not_wf; lia).
  rewrite bm_not_bit by (auto; lia).
  destruct (Nat.ltb_spec i n); [auto|lia].
Qed.

Lemma upd_wf n b j x : bm_wf n b -> (0 <= x < 2 ^ Z.of_nat (bm_word_bits n))%Z ->
  bm_wf n (upd b j x).
Proof.
  intros [Hl Hf] Hx. split; [rewrite upd_length; auto|].
  clear Hl. revert j. induction Hf; destruct j; simpl; auto.
Qed.

Lemma bm_bit_upd n b j x i : j < length b ->
  bm_bit n (upd b j x) i =
    if i / bm_word_bits n =? j then Z.testbit x (Z.of_nat (i mod bm_word_bits n))
    else bm_bit n b i.
Proof.
  intros Hj. unfold bm_bit. destruct (Nat.eqb_spec (i / bm_word_bits n) j) as [->|].
  - rewrite upd_nth_same by auto. auto.
  - rewrite upd_nth_other by auto. auto.
Qed.

Lemma bm_of_ullong_wf n x : 1 <= n -> bm_wf n (bm_of_ullong n x).
Proof.
  intros Hn. geom n. unfold bm_of_ullong, bm_zero.
  destruct (bm_array_size n) as [|m] eqn:Es; [lia|]. simpl.
  destruct (bm_zero_wf n) as [_ Hz]. unfold bm_zero in Hz. rewrite Es in Hz. simpl in Hz.
  split.
  - simpl. rewrite repeat_length. lia.
  - constructor; [|inversion Hz; auto].
    unfold bm_to_word. destruct (Nat.eqb_spec n 1) as [->|].
    + change (Z.of_nat (bm_word_bits 1)) with 1%Z. destruct (x =? 0)%Z; lia.
    + apply mod_pow2_bound; lia.
Qed.

(* bits of a single word value converted into an n-bit mask *)
Lemma bm_of_ullong_bit n x i : 1 <= n -> n <> 1 -> i < bm_word_bits n ->
  bm_bit n (bm_of_ullong n x) i = Z.testbit x (Z.of_nat i).
Proof.
  intros Hn Hne Hi. geom n. unfold bm_bit, bm_of_ullong, bm_zero.
  destruct (bm_array_size n) as [|m] eqn:Es; [lia|]. simpl.
  rewrite Nat.div_small, Nat.mod_small by lia. simpl.
  unfold bm_to_word. destruct (Nat.eqb_spec n 1); [lia|].
  rewrite testbit_mod_pow2 by lia.
  replace (Z.of_nat i <? _)%Z with true; auto. symmetry; apply Z.ltb_lt; lia.
Qed.

Lemma bm_of_ullong_bit1 x : bm_bit 1 (bm_of_ullong 1 x) 0 = negb (x =? 0)%Z.
Proof. unfold bm_bit, bm_of_ullong. simpl. unfold bm_to_word. simpl. destruct (x =? 0)%Z; auto. Qed.

Lemma clean1 b : bm_wf 1 b -> bm_clean 1 b.
Proof.
  intros H. split; auto. change (bm_array_size 1 * bm_word_bits 1) with 1. intros; lia.
Qed.

Lemma bm_sanitized_spec n san b : 1 <= n -> bm_wf n b ->
  (san = true -> bm_clean n b) ->
  bm_clean n (bm_sanitized n san b) /\
  (forall i, i < n -> bm_bit n (bm_sanitized n san b) i = bm_bit n b i).
Proof.
  intros Hn Hwf Hsan. geom n. unfold bm_sanitized. destruct san; [auto|].
  destruct (Nat.eqb_spec n 1) as [->|Hne].
  - split; [apply clean1, bm_of_ullong_wf; auto|].
    intros i Hi. assert (i = 0) by lia; subst. rewrite bm_of_ullong_bit1.
    unfold bm_bit. simpl. apply bit01. apply (wf_nth 1 b 0 Hwf).
  - destruct (Nat.ltb_spec 0 (bm_unused_bits n)) as [Hu|Hu].
    2:{ split; [split; auto; intros; lia|auto]. }
    assert (Hwf' : bm_wf n (upd b (bm_array_size n - 1)
       (Z.land (nth (bm_array_size n - 1) b 0%Z) (bm_bitmask n)))).
    { apply upd_wf; auto. apply land_bound; [lia|apply wf_nth; auto|].
      apply bm_bitmask_bound; auto. }
    assert (Hbit : forall i, i < bm_array_size n * bm_word_bits n ->
       bm_bit n (upd b (bm_array_size n - 1)
         (Z.land (nth (bm_array_size n - 1) b 0%Z) (bm_bitmask n))) i
       = (bm_bit n b i && (i <? n))%bool).
    { intros i Hi. rewrite bm_bit_upd by (destruct Hwf; lia).
      assert (Hr : i mod bm_word_bits n < bm_word_bits n) by (apply Nat.mod_upper_bound; lia).
      pose proof (Nat.div_mod i (bm_word_bits n) ltac:(lia)) as Hdm.
      pose proof (idx_lt n i Hn Hi).
      destruct (Nat.eqb_spec (i / bm_word_bits n) (bm_array_size n - 1)) as [E|E].
      - rewrite Z.land_spec, bm_bitmask_bit by lia. unfold bm_bit. rewrite E. f_equal.
        rewrite E in Hdm.
        apply eq_true_iff_eq. rewrite Z.ltb_lt, Nat.ltb_lt. nia.
      - replace (i <? n) with true; [rewrite andb_true_r; auto|].
        symmetry. apply Nat.ltb_lt. nia. }
    split; [split; auto|].
    + intros i Hi. rewrite Hbit by lia.
      destruct (Nat.ltb_spec i n); [lia|]. apply andb_false_r.
    + intros i Hi. rewrite Hbit by lia.
      destruct (Nat.ltb_spec i n); [|lia]. apply andb_true_r.
Qed.

(* set *)
Lemma testbit_b2z x k : (0 <= k)%Z -> Z.testbit (b2z x) k = ((k =? 0)%Z && x)%bool.
Proof.
  intros. destruct x; simpl; [|rewrite Z.bits_0, andb_false_r; auto].
  change 1%Z with (2 ^ 0)%Z. rewrite testbit_pow2 by lia.
  rewrite andb_true_r. apply Z.eqb_sym.
Qed.

Lemma bm_set_spec n b i x : 1 <= n -> bm_wf n b -> i < n ->
  bm_wf n (bm_set n b i x) /\
  (forall k, k < bm_array_size n * bm_word_bits n ->
     bm_bit n (bm_set n b i x) k = if k =? i then x else bm_bit n b k).
Proof.
  intros Hn Hwf Hi. geom n. pose proof Hwf as [Hlen _]. unfold bm_set.
  destruct (Nat.eqb_spec n 1) as [->|Hne].
  { assert (Hb : (0 <= b2z x < 2 ^ Z.of_nat (bm_word_bits 1))%Z)
      by (change (2 ^ Z.of_nat (bm_word_bits 1))%Z with 2%Z; destruct x; simpl; lia).
    split; [apply upd_wf; auto|].
    change (bm_array_size 1) with 1 in *. change (bm_word_bits 1) with 1.
    intros k Hk. assert (k = 0) by lia. assert (i = 0) by lia. subst.
    rewrite bm_bit_upd by lia. simpl. destruct x; auto. }
  set (j := if bm_array_size n =? 1 then 0 else i / (bm_word_bytes n * 8)).
  set (s := if bm_array_size n =? 1 then i else i mod (bm_word_bytes n * 8)).
  assert (Hj : j = i / bm_word_bits n /\ s = i mod bm_word_bits n).
  { subst j s. rewrite <- HGb by auto.
    destruct (Nat.eqb_spec (bm_array_size n) 1) as [E|]; auto.
    rewrite E in HGsw. rewrite Nat.div_small, Nat.mod_small by lia. auto. }
  destruct Hj as [Hj Hs].
  assert (Hjlt : j < bm_array_size n) by (rewrite Hj; apply idx_lt; lia).
  assert (Hslt : s < bm_word_bits n) by (rewrite Hs; apply Nat.mod_upper_bound; lia).
  pose proof (pow2_word_pos n) as Hpw.
  cbv zeta. split.
  - apply upd_wf; auto. apply lor_bound; [lia| |apply mod_pow2_bound; lia].
    apply land_bound; [lia|apply wf_nth; auto|apply mod_pow2_bound; lia].
  - intros k Hk. rewrite bm_bit_upd by lia.
    destruct (Nat.eqb_spec (k / bm_word_bits n) j) as [E|E].
    + assert (Hr : k mod bm_word_bits n < bm_word_bits n) by (apply Nat.mod_upper_bound; lia).
      set (r := k mod bm_word_bits n) in *.
      rewrite Z.lor_spec, Z.land_spec, !testbit_mod_pow2, Z.lnot_spec, testbit_mod_pow2 by lia.
      rewrite !Z.shiftl_spec by lia.
      replace (Z.of_nat r <? Z.of_nat (bm_word_bits n))%Z with true
        by (symmetry; apply Z.ltb_lt; lia).
      rewrite !andb_true_l.
      assert (Hki : (k =? i) = (r =? s)).
      { apply eq_true_iff_eq. rewrite !Nat.eqb_eq.
        pose proof (Nat.div_mod k (bm_word_bits n) ltac:(lia)).
        pose proof (Nat.div_mod i (bm_word_bits n) ltac:(lia)).
        fold r in H. rewrite <- Hs, <- Hj in H0. rewrite E in H. split; [intros ->; lia|intros Hrs; rewrite Hrs in H; lia]. }
      rewrite Hki. destruct (Nat.eqb_spec r s) as [->|Hrs].
      * rewrite Z.sub_diag. simpl. rewrite andb_false_r. simpl.
        rewrite testbit_b2z by lia. auto.
      * assert (Hz : forall y, Z.testbit (b2z y) (Z.of_nat r - Z.of_nat s) = false).
        { intros y. destruct (Z_lt_le_dec (Z.of_nat r - Z.of_nat s) 0).
          - apply Z.testbit_neg_r; lia.
          - rewrite testbit_b2z by lia. replace (_ =? 0)%Z with false; auto.
            symmetry; apply Z.eqb_neq; lia. }
        pose proof (Hz true) as Hz1. simpl in Hz1. rewrite Hz1, Hz. simpl.
        rewrite andb_true_r, orb_false_r. unfold bm_bit. rewrite E. auto.
    + destruct (Nat.eqb_spec k i) as [->|]; auto. congruence.
Qed.

Lemma bm_set_clean n b i x : 1 <= n -> bm_clean n b -> i < n -> bm_clean n (bm_set n b i x).
Proof.
  intros Hn [H1 H2] Hi. destruct (bm_set_spec n b i x Hn H1 Hi) as [Hw Hb].
  split; auto. intros k Hk. rewrite Hb by lia.
  destruct (Nat.eqb_spec k i); [lia|]. apply H2; auto.
Qed.

Lemma bm_set_list n b i x : 1 <= n -> bm_wf n b -> i < n ->
  bm_list n (bm_set n b i x) = upd (bm_list n b) i x.
Proof.
  intros Hn Hwf Hi. geom n. destruct (bm_set_spec n b i x Hn Hwf Hi) as [Hw Hb].
  apply nth_eq_ext with false; rewrite ?upd_length, ?bm_list_length; auto.
  intros k Hk. rewrite bm_list_nth by auto. rewrite bm_get_bit by auto.
  rewrite Hb by lia. destruct (Nat.eqb_spec k i) as [->|].
  - rewrite upd_nth_same; auto. rewrite bm_list_length; auto.
  - rewrite upd_nth_other, bm_list_nth, bm_get_bit by auto. auto.
Qed.

(* broadcast *)
Lemma fsm_broadcast_spec n x : 1 <= n ->
  bm_clean n (fsm_broadcast n x) /\ bm_list n (fsm_broadcast n x) = repeat x n.
Proof.
  intros Hn. geom n.
  assert (H0 : bm_list n (bm_zero n) = repeat false n).
  { apply nth_eq_ext with false; rewrite ?bm_list_length, ?repeat_length; auto.
    intros i Hi. rewrite bm_list_nth by auto.
    rewrite bm_get_bit, bm_zero_bit by auto using bm_zero_wf.
    symmetry. apply nth_repeat. }
  unfold fsm_broadcast. destruct x; split.
  - apply bm_not_clean; auto. apply bm_zero_clean.
  - rewrite bm_not_list by auto using bm_zero_wf. rewrite H0.
    clear. induction n; simpl; f_equal; auto.
  - apply bm_zero_clean.
  - auto.
Qed.

(* ------------------------------------------------------------------ *)
(* reductions *)
Lemma bm_all_iff n b : 1 <= n -> bm_clean n b ->
  (bm_all_san n b = true <-> forall i, i < n -> bm_bit n b i = true).
Proof.
  intros Hn [Hwf Hcl]. geom n. unfold bm_all_san.
  destruct (Nat.eqb_spec n 1) as [->|Hne].
  { rewrite bit01 by apply (wf_nth 1 b 0 Hwf). split.
    - intros H i Hi. assert (i = 0) by lia; subst. unfold bm_bit. simpl. auto.
    - intros H. specialize (H 0 ltac:(lia)). unfold bm_bit in H. simpl in H. auto. }
  rewrite andb_true_iff, forallb_forall, Z.eqb_eq. split.
  - intros [Hall Hlast] i Hi.
    assert (Hr : i mod bm_word_bits n < bm_word_bits n) by (apply Nat.mod_upper_bound; lia).
    pose proof (Nat.div_mod i (bm_word_bits n) ltac:(lia)) as Hdm.
    pose proof (idx_lt n i Hn ltac:(lia)) as Hj.
    unfold bm_bit. set (j := i / bm_word_bits n) in *.
    destruct (Nat.eq_dec j (bm_array_size n - 1)) as [E|E].
    + rewrite E, Hlast, bm_bitmask_bit by lia. apply Z.ltb_lt. nia.
    + specialize (Hall j). rewrite in_seq, Z.eqb_eq in Hall. rewrite Hall by lia.
      rewrite testbit_ones by lia. apply Z.ltb_lt. lia.
  - intros H. split.
    + intros j Hj. apply in_seq in Hj. apply Z.eqb_eq. apply Z.bits_inj'. intros k Hk.
      rewrite testbit_ones by lia.
      destruct (Z.ltb_spec k (Z.of_nat (bm_word_bits n))).
      * destruct (divmod_split (bm_word_bits n) j (Z.to_nat k)) as [E1 E2]; [lia|].
        specialize (H (j * bm_word_bits n + Z.to_nat k)). unfold bm_bit in H.
        rewrite E1, E2, Z2Nat.id in H by lia. apply H. nia.
      * eapply testbit_above; eauto. apply wf_nth; auto.
    + apply Z.bits_inj'. intros k Hk. rewrite bm_bitmask_bit by lia.
      set (j := bm_array_size n - 1) in *.
      destruct (Z_lt_le_dec k (Z.of_nat (bm_word_bits n))) as [Hlt|Hge].
      * destruct (divmod_split (bm_word_bits n) j (Z.to_nat k)) as [E1 E2]; [lia|].
        assert (Hbit : Z.testbit (nth j b 0%Z) k = bm_bit n b (j * bm_word_bits n + Z.to_nat k)).
        { unfold bm_bit. rewrite E1, E2, Z2Nat.id by lia. auto. }
        rewrite Hbit.
        destruct (Z.ltb_spec k (Z.of_nat (bm_word_bits n - bm_unused_bits n))).
        -- apply H. nia.
        -- apply Hcl. nia.
      * replace (k <? _)%Z with false by (symmetry; apply Z.ltb_ge; lia).
        eapply testbit_above; eauto. apply wf_nth; auto.
Qed.

Lemma bm_none_iff n b : 1 <= n -> bm_clean n b ->
  (bm_none_san n b = true <-> forall i, i < n -> bm_bit n b i = false).
Proof.
  intros Hn [Hwf Hcl]. geom n. unfold bm_none_san.
  destruct (Nat.eqb_spec n 1) as [->|Hne].
  { assert (E : (nth 0 b 0 =? 0)%Z = negb (bm_bit 1 b 0)).
    { unfold bm_bit. simpl. rewrite <- bit01 by apply (wf_nth 1 b 0 Hwf).
      rewrite negb_involutive. auto. }
    rewrite E, negb_true_iff. split.
    - intros H i Hi. assert (i = 0) by lia; subst; auto.
    - intros H. apply H; lia. }
  rewrite andb_true_iff, negb_true_iff, Z.eqb_eq.
  transitivity (forall j, j < bm_array_size n -> nth j b 0%Z = 0%Z).
  - split.
    + intros [H1 H2] j Hj. destruct (Nat.eq_dec j (bm_array_size n - 1)) as [->|]; auto.
      destruct (Z.eq_dec (nth j b 0%Z) 0); auto. exfalso.
      rewrite <- not_true_iff_false in H1. apply H1. apply existsb_exists.
      exists j. split; [apply in_seq; lia|]. apply negb_true_iff, Z.eqb_neq. auto.
    + intros H. split; [|apply H; lia].
      apply not_true_iff_false. intros H1. apply existsb_exists in H1 as (j & Hj & E).
      apply in_seq in Hj. rewrite H in E by lia. discriminate.
  - split.
    + intros H i Hi. unfold bm_bit. rewrite H by (apply idx_lt; lia). apply Z.bits_0.
    + intros H j Hj. apply Z.bits_inj'. intros k Hk. rewrite Z.bits_0.
      destruct (Z_lt_le_dec k (Z.of_nat (bm_word_bits n))) as [Hlt|Hge].
      * destruct (divmod_split (bm_word_bits n) j (Z.to_nat k)) as [E1 E2]; [lia|].
        assert (Hbit : Z.testbit (nth j b 0%Z) k = bm_bit n b (j * bm_word_bits n + Z.to_nat k)).
        { unfold bm_bit. rewrite E1, E2, Z2Nat.id by lia. auto. }
        rewrite Hbit. destruct (le_lt_dec n (j * bm_word_bits n + Z.to_nat k)).
        -- apply Hcl. nia.
        -- apply H. auto.
      * eapply testbit_above; eauto. apply wf_nth; auto.
Qed.

Lemma bm_any_none n b : bm_any_san n b = negb (bm_none_san n b).
Proof.
  unfold bm_any_san, bm_none_san. destruct (n =? 1); auto.
  rewrite negb_andb, negb_involutive. auto.
Qed.

(* lifting to the list of elements *)
Lemma forall_bits_list n b : 1 <= n -> bm_wf n b ->
  forall P : bool -> Prop,
  (forall i, i < n -> P (bm_bit n b i)) <-> Forall P (bm_list n b).
Proof.
  intros Hn Hwf P. rewrite Forall_forall. unfold bm_list. split.
  - intros H x Hx. apply in_map_iff in Hx as (i & <- & Hi). apply in_seq in Hi.
    rewrite bm_get_bit by (auto; lia). apply H; lia.
  - intros H i Hi. rewrite <- bm_get_bit by auto. apply H.
    apply in_map. apply in_seq. lia.
Qed.

Lemma forallb_id_Forall l : forallb (fun x : bool => x) l = true <-> Forall (fun x => x = true) l.
Proof.
  rewrite forallb_forall, Forall_forall. tauto.
Qed.

Lemma existsb_id_false l : existsb (fun x : bool => x) l = false <-> Forall (fun x => x = false) l.
Proof.
  induction l; simpl; split; intros H; auto.
  - apply orb_false_iff in H as [-> H]. constructor; auto. apply IHl; auto.
  - inversion H; subst. simpl. apply IHl; auto.
Qed.

Lemma bm_sanitized_list n san b : 1 <= n -> bm_wf n b -> (san = true -> bm_clean n b) ->
  bm_list n (bm_sanitized n san b) = bm_list n b.
Proof.
  intros Hn Hwf Hs. destruct (bm_sanitized_spec n san b Hn Hwf Hs) as [[Hw _] Hb].
  unfold bm_list. apply map_ext_in. intros i Hi. apply in_seq in Hi.
  rewrite !bm_get_bit by (auto; lia). apply Hb; lia.
Qed.

Lemma bm_all_san_list n b : 1 <= n -> bm_clean n b ->
  bm_all_san n b = forallb (fun x => x) (bm_list n b).
Proof.
  intros Hn Hc. apply eq_true_iff_eq. rewrite bm_all_iff by auto.
  rewrite forallb_id_Forall. apply (forall_bits_list n b Hn (proj1 Hc) (fun x => x = true)).
Qed.

Lemma bm_none_san_list n b : 1 <= n -> bm_clean n b ->
  bm_none_san n b = negb (existsb (fun x => x) (bm_list n b)).
Proof.
  intros Hn Hc. apply eq_true_iff_eq. rewrite bm_none_iff by auto.
  rewrite negb_true_iff, existsb_id_false.
  apply (forall_bits_list n b Hn (proj1 Hc) (fun x => x = false)).
Qed.

Lemma bm_n1_word san b : bm_wf 1 b -> bm_all 1 san b = forallb (fun x => x) (bm_list 1 b).
Proof.
  intros H. unfold bm_all, bm_list. simpl. unfold bm_get. simpl. rewrite andb_true_r. auto.
Qed.

Lemma bm_all_list n san b : 1 <= n -> bm_wf n b -> (san = true -> bm_clean n b) ->
  bm_all n san b = forallb (fun x => x) (bm_list n b).
Proof.
  intros Hn Hwf Hs. unfold bm_all. destruct (Nat.eqb_spec n 1) as [->|Hne].
  - apply (bm_n1_word san b Hwf).
  - rewrite bm_all_san_list by (auto; apply bm_sanitized_spec; auto).
    rewrite bm_sanitized_list; auto.
Qed.

Lemma bm_none_list n san b : 1 <= n -> bm_wf n b -> (san = true -> bm_clean n b) ->
  bm_none n san b = negb (existsb (fun x => x) (bm_list n b)).
Proof.
  intros Hn Hwf Hs. unfold bm_none. destruct (Nat.eqb_spec n 1) as [->|Hne].
  - unfold bm_list, bm_get. simpl. rewrite orb_false_r, negb_involutive. auto.
  - rewrite bm_none_san_list by (auto; apply bm_sanitized_spec; auto).
    rewrite bm_sanitized_list; auto.
Qed.

Lemma bm_any_list n san b : 1 <= n -> bm_wf n b -> (san = true -> bm_clean n b) ->
  bm_any n san b = existsb (fun x => x) (bm_list n b).
Proof.
  intros Hn Hwf Hs. unfold bm_any. destruct (Nat.eqb_spec n 1) as [->|Hne].
  - unfold bm_list, bm_get. simpl. rewrite orb_false_r. auto.
  - rewrite bm_any_none.
    rewrite bm_none_san_list by (auto; apply bm_sanitized_spec; auto).
    rewrite bm_sanitized_list, negb_involutive; auto.
Qed.

(* ------------------------------------------------------------------ *)
(* counting *)

Lemma count_true_app l1 l2 : count_true (l1 ++ l2) = count_true l1 + count_true l2.
Proof. unfold count_true. rewrite filter_app, app_length. auto. Qed.

Lemma count_true_false {A} (m : list A) (f : A -> bool) : (forall i, In i m -> f i = false) -> count_true (map f m) = 0.
Proof.
  induction m; simpl; intros H; auto. rewrite H by auto. simpl. apply IHm. auto.
Qed.

Lemma testbit_shift_half p k :
  Z.testbit (Zpos p~0) (Z.of_nat (S k)) = Z.testbit (Zpos p) (Z.of_nat k) /\
  Z.testbit (Zpos p~1) (Z.of_nat (S k)) = Z.testbit (Zpos p) (Z.of_nat k).
Proof.
  rewrite Nat2Z.inj_succ. split.
  - change (Zpos p~0) with (2 * Zpos p)%Z. rewrite Z.testbit_even_succ by lia. auto.
  - change (Zpos p~1) with (2 * Zpos p + 1)%Z. rewrite Z.testbit_odd_succ by lia. auto.
Qed.

Lemma count_true_cons x l : count_true (x :: l) = (if x then 1 else 0) + count_true l.
Proof. unfold count_true. destruct x; auto. Qed.

Lemma popcount_bits w : forall x, (0 <= x < 2 ^ Z.of_nat w)%Z ->
  popcount x = count_true (map (fun k => Z.testbit x (Z.of_nat k)) (seq 0 w)).
Proof.
  induction w as [|w IH]; intros x Hx.
  - change (2 ^ Z.of_nat 0)%Z with 1%Z in Hx. assert (x = 0%Z) by lia. subst. auto.
  - rewrite Nat2Z.inj_succ, Z.pow_succ_r in Hx by lia.
    simpl seq. rewrite <- seq_shift. cbn [map]. rewrite map_map, count_true_cons.
    destruct x as [|p|p]; [| |lia].
    + rewrite count_true_false by (intros; apply Z.bits_0). auto.
    + destruct p as [p|p|].
      * specialize (IH (Zpos p) ltac:(lia)). cbn [popcount popcount_pos] in *.
        rewrite IH. change (Z.testbit (Zpos p~1) (Z.of_nat 0)) with true.
        cbn [Nat.add]. f_equal. f_equal. apply map_ext.
        intros k. symmetry. apply testbit_shift_half.
      * specialize (IH (Zpos p) ltac:(lia)). cbn [popcount popcount_pos] in *.
        rewrite IH. change (Z.testbit (Zpos p~0) (Z.of_nat 0)) with false.
        cbn [Nat.add]. f_equal. apply map_ext.
        intros k. symmetry. apply testbit_shift_half.
      * rewrite count_true_false; [auto|]. intros k _.
        change 1%Z with (2 ^ 0)%Z. rewrite testbit_pow2 by lia.
        apply Z.eqb_neq. lia.
Qed.

Lemma fold_add_acc {A} (f : A -> nat) l acc :
  fold_left (fun a i => a + f i) l acc = acc + list_sum (map f l).
Proof.
  revert acc; induction l; intros; simpl; [lia|]. rewrite IHl. lia.
Qed.

Lemma count_bits_words n b s : 1 <= n -> bm_wf n b ->
  count_true (map (bm_bit n b) (seq 0 (s * bm_word_bits n)))
  = list_sum (map (fun j => popcount (nth j b 0%Z)) (seq 0 s)).
Proof.
  intros Hn Hwf. geom n. induction s.
  - auto.
  - rewrite seq_S, map_app, list_sum_app, <- IHs. simpl (list_sum (map _ [0 + s])).
    replace (S s * bm_word_bits n) with (s * bm_word_bits n + bm_word_bits n) by lia.
    rewrite seq_app, map_app, count_true_app. f_equal.
    rewrite (popcount_bits (bm_word_bits n)) by (apply wf_nth; auto).
    rewrite Nat.add_0_r, !Nat.add_0_l. f_equal.
    rewrite <- (Nat.add_0_l (s * bm_word_bits n)) at 1.
    replace (seq (0 + s * bm_word_bits n) (bm_word_bits n))
      with (map (fun k => s * bm_word_bits n + k) (seq 0 (bm_word_bits n))).
    + rewrite map_map. apply map_ext_in. intros k Hk. apply in_seq in Hk.
      unfold bm_bit. destruct (divmod_split (bm_word_bits n) s k) as [-> ->]; [lia|]. auto.
    + clear. generalize (s * bm_word_bits n) as m. intros m.
      generalize 0 as k. generalize (bm_word_bits n) as w.
      induction w; intros k; simpl; auto. f_equal; [lia|].
      rewrite IHw. auto.
Qed.

Lemma bm_count_san_list n b : 1 <= n -> bm_clean n b ->
  bm_count n true b = count_true (bm_list n b).
Proof.
  intros Hn [Hwf Hcl]. geom n. unfold bm_count. simpl negb. cbv iota.
  assert (Hl : bm_list n b = map (bm_bit n b) (seq 0 n)).
  { apply map_ext_in. intros i Hi. apply in_seq in Hi. apply bm_get_bit; auto; lia. }
  destruct (Nat.eqb_spec n 1) as [->|Hne].
  - unfold bm_list, bm_get. simpl. destruct (nth 0 b 0 =? 0)%Z; auto.
  - rewrite fold_add_acc, Hl.
    pose proof (count_bits_words n b (bm_array_size n) Hn Hwf) as Hc.
    rewrite HGsw, seq_app, map_app, count_true_app in Hc.
    rewrite (count_true_false (seq (0 + n) _)), Nat.add_0_r in Hc.
    2:{ intros i Hi. apply in_seq in Hi. apply Hcl. lia. }
    rewrite Hc. destruct (bm_array_size n) as [|m]; [lia|].
    simpl. rewrite Nat.sub_0_r. auto.
Qed.

(* ------------------------------------------------------------------ *)
(* find first / last *)
Lemma ctz_spec p : Z.testbit (Zpos p) (Z.of_nat (ctz_pos p)) = true /\
  forall j, j < ctz_pos p -> Z.testbit (Zpos p) (Z.of_nat j) = false.
Proof.
  induction p as [p IH|p [IH1 IH2]|].
  - simpl ctz_pos. split; [auto|lia].
  - split.
    + cbn [ctz_pos]. rewrite (proj1 (testbit_shift_half p (ctz_pos p))). auto.
    + intros [|j] Hj; [auto|]. cbn [ctz_pos] in Hj.
      rewrite (proj1 (testbit_shift_half p j)). apply IH2. lia.
  - simpl. split; [auto|lia].
Qed.

Lemma bm_single n b i : 1 <= n -> n <= 64 -> i < n -> bm_wf n b ->
  bm_get n b i = Z.testbit (bm_to_ullong b) (Z.of_nat i).
Proof.
  intros Hn H64 Hi Hwf. geom n. rewrite bm_get_bit by auto.
  unfold bm_bit, bm_to_ullong. rewrite HGone in HGsw by auto.
  rewrite Nat.div_small, Nat.mod_small by lia. auto.
Qed.

Lemma to_ullong_bound n b : 1 <= n -> n <= 64 -> bm_clean n b ->
  (0 <= bm_to_ullong b < 2 ^ Z.of_nat n)%Z.
Proof.
  intros Hn H64 [Hwf Hcl]. geom n. specialize (HGone H64). rewrite HGone in HGsw.
  pose proof (wf_nth n b 0 Hwf) as Hb. fold (bm_to_ullong b) in Hb.
  split; [lia|]. apply bounded_of_testbit; [lia|lia|].
  intros i Hi.
  destruct (Z_lt_le_dec i (Z.of_nat (bm_word_bits n))) as [Hlt|Hge].
  - specialize (Hcl (Z.to_nat i)). unfold bm_bit in Hcl.
    rewrite Nat.div_small, Nat.mod_small, Z2Nat.id in Hcl by lia.
    apply Hcl. lia.
  - eapply testbit_above; eauto.
Qed.

Lemma fsm_find_first n b : 1 <= n -> n <= 64 -> bm_clean n b ->
  (exists i, i < n /\ bm_get n b i = true) ->
  fsm_find_first_set b < n /\ bm_get n b (fsm_find_first_set b) = true /\
  forall j, j < fsm_find_first_set b -> bm_get n b j = false.
Proof.
  intros Hn H64 Hc (i & Hi & Hb). pose proof (to_ullong_bound n b Hn H64 Hc) as Hbd.
  rewrite (bm_single n b i) in Hb by (auto; apply Hc).
  unfold fsm_find_first_set, countr_zero.
  destruct (bm_to_ullong b) as [|p|p] eqn:E; [rewrite Z.bits_0 in Hb; discriminate| |lia].
  destruct (ctz_spec p) as [H1 H2].
  assert (ctz_pos p < n).
  { destruct (le_lt_dec n (ctz_pos p)) as [H|H]; auto.
    rewrite H2 in Hb by lia. discriminate. }
  split; [auto|]. split.
  - rewrite (bm_single n b) by (auto; apply Hc). rewrite E. auto.
  - intros j Hj. rewrite (bm_single n b) by (auto; try lia; apply Hc). rewrite E. auto.
Qed.

Lemma fsm_find_last n b : 1 <= n -> n <= 64 -> bm_clean n b ->
  (exists i, i < n /\ bm_get n b i = true) ->
  exists i, fsm_find_last_set b = Z.of_nat i /\ i < n /\ bm_get n b i = true /\
  forall j, i < j < n -> bm_get n b j = false.
Proof.
  intros Hn H64 Hc (i & Hi & Hb). pose proof (to_ullong_bound n b Hn H64 Hc) as Hbd.
  rewrite (bm_single n b i) in Hb by (auto; apply Hc).
  unfold fsm_find_last_set, bit_width.
  assert (Hx : (0 < bm_to_ullong b)%Z).
  { destruct (Z.eq_dec (bm_to_ullong b) 0) as [E|]; [|lia].
    rewrite E, Z.bits_0 in Hb. discriminate. }
  destruct (Z.eqb_spec (bm_to_ullong b) 0); [lia|].
  pose proof (Z.log2_nonneg (bm_to_ullong b)) as Hl0.
  assert (Hlt : (Z.log2 (bm_to_ullong b) < Z.of_nat n)%Z) by (apply Z.log2_lt_pow2; lia).
  exists (Z.to_nat (Z.log2 (bm_to_ullong b))).
  repeat split.
  - lia.
  - lia.
  - rewrite (bm_single n b) by (auto; try lia; apply Hc).
    rewrite Z2Nat.id by lia. apply Z.bit_log2. auto.
  - intros j Hj. rewrite (bm_single n b) by (auto; try lia; apply Hc).
    apply Z.bits_above_log2; lia.
Qed.

(* ------------------------------------------------------------------ *)
(* bit iteration *)
Lemma clear_lowest p j : (0 <= j)%Z ->
  Z.testbit (Z.land (Zpos p) (Zpos p - 1)) j
  = (Z.testbit (Zpos p) j && negb (j =? Z.of_nat (ctz_pos p))%Z)%bool.
Proof.
  revert j. induction p as [p IH|p IH|]; intros j Hj.
  - replace (Zpos p~1 - 1)%Z with (Zpos p~0) by lia.
    rewrite Z.land_spec. simpl ctz_pos. simpl (Z.of_nat 0).
    destruct (Z.eqb_spec j 0) as [->|Hne]; [auto|].
    replace j with (Z.succ (Z.pred j)) by lia.
    change (Zpos p~1) with (2 * Zpos p + 1)%Z. change (Zpos p~0) with (2 * Zpos p)%Z.
    rewrite Z.testbit_odd_succ, Z.testbit_even_succ by lia.
    simpl. rewrite andb_true_r. apply andb_diag.
  - cbn [ctz_pos]. rewrite Nat2Z.inj_succ.
    replace (Zpos p~0 - 1)%Z with (2 * (Zpos p - 1) + 1)%Z by lia.
    change (Zpos p~0) with (2 * Zpos p)%Z. rewrite Z.land_spec.
    destruct (Z.eq_dec j 0) as [->|Hne].
    + rewrite Z.testbit_even_0. auto.
    + specialize (IH (Z.pred j) ltac:(lia)). rewrite Z.land_spec in IH.
      replace j with (Z.succ (Z.pred j)) by lia.
      rewrite Z.testbit_even_succ, Z.testbit_odd_succ by lia.
      rewrite IH. f_equal. f_equal. apply eq_true_iff_eq. rewrite !Z.eqb_eq. lia.
  - simpl. rewrite Z.bits_0. destruct (Z.eqb_spec j 0) as [->|]; [auto|].
    simpl. rewrite andb_true_r. change 1%Z with (2 ^ 0)%Z.
    rewrite testbit_pow2 by lia. symmetry. apply Z.eqb_neq. lia.
Qed.

Definition set_bits (w : nat) (k : Z) : list nat :=
  filter (fun i => Z.testbit k (Z.of_nat i)) (seq 0 w).

Lemma filter_none {A} (f : A -> bool) l : (forall x, In x l -> f x = false) -> filter f l = [].
Proof. induction l; simpl; intros H; auto. rewrite H by auto. apply IHl; auto. Qed.

Lemma set_bits_step w p : (Zpos p < 2 ^ Z.of_nat w)%Z ->
  set_bits w (Zpos p) = ctz_pos p :: set_bits w (Z.land (Zpos p) (Zpos p - 1)).
Proof.
  intros Hp. destruct (ctz_spec p) as [H1 H2].
  assert (Hc : ctz_pos p < w).
  { destruct (le_lt_dec w (ctz_pos p)); auto.
    rewrite (testbit_above _ (Z.of_nat w)) in H1 by lia. discriminate. }
  unfold set_bits.
  replace w with (ctz_pos p + S (w - ctz_pos p - 1)) by lia.
  rewrite seq_app, !filter_app. cbn [seq Nat.add].
  rewrite !(filter_none _ (seq 0 (ctz_pos p))).
  2:{ intros x Hx. apply in_seq in Hx. rewrite clear_lowest, H2 by lia. auto. }
  2:{ intros x Hx. apply in_seq in Hx. rewrite H2 by lia. auto. }
  cbn [app filter]. rewrite H1. f_equal.
  rewrite clear_lowest, Z.eqb_refl, andb_false_r by lia. cbn [negb].
  apply filter_ext_in. intros a Ha. apply in_seq in Ha.
  rewrite clear_lowest by lia. replace (_ =? _)%Z with false; [rewrite andb_true_r; auto|].
  symmetry. apply Z.eqb_neq. lia.
Qed.

Lemma filter_length_le' {A} (f : A -> bool) l : length (filter f l) <= length l.
Proof. induction l; simpl; [lia|]. destruct (f a); simpl; lia. Qed.

Lemma set_bits_count w k : (0 <= k < 2 ^ Z.of_nat w)%Z -> length (set_bits w k) <= w.
Proof.
  intros. unfold set_bits.
  etransitivity; [apply filter_length_le'|]. rewrite seq_length. auto.
Qed.

Lemma clear_low_bound w p : (Zpos p < 2 ^ Z.of_nat w)%Z ->
  (0 <= Z.land (Zpos p) (Zpos p - 1) < 2 ^ Z.of_nat w)%Z.
Proof.
  intros H.
  assert (0 <= Z.land (Zpos p) (Zpos p - 1))%Z by (apply Z.land_nonneg; lia).
  split; auto. apply bounded_of_testbit; [lia|auto|].
  intros i Hi. rewrite Z.land_spec, (testbit_above (Zpos p) (Z.of_nat w)) by lia. auto.
Qed.

Lemma set_bits_0 w : set_bits w 0 = [].
Proof. unfold set_bits. rewrite filter_none; auto. intros; apply Z.bits_0. Qed.

Lemma bit_iteration_gen fuel : forall w k, (0 <= k < 2 ^ Z.of_nat w)%Z ->
  length (set_bits w k) <= fuel -> bit_iteration fuel k = Some (set_bits w k).
Proof.
  induction fuel as [|fuel IH]; intros w k Hk Hl; cbn [bit_iteration].
  - destruct (Z.eqb_spec k 0) as [->|Hne]; [rewrite set_bits_0; auto|].
    destruct k as [|p|p]; [lia| |lia].
    rewrite set_bits_step in Hl by lia. cbn [length] in Hl. lia.
  - destruct (Z.eqb_spec k 0) as [->|Hne]; [rewrite set_bits_0; auto|].
    destruct k as [|p|p]; [lia| |lia]. cbn [countr_zero].
    rewrite set_bits_step in * by lia. cbn [length] in Hl.
    rewrite (IH w) by (auto using clear_low_bound; try lia; apply clear_low_bound; lia).
    auto.
Qed.

Lemma bit_iteration_spec fuel w k : (0 <= k < 2 ^ Z.of_nat w)%Z -> w <= fuel ->
  bit_iteration fuel k = Some (set_bits w k).
Proof.
  intros. apply bit_iteration_gen; auto. etransitivity; [apply set_bits_count|]; auto.
Qed.

Lemma wr_loop_gen fuel : forall w k, (0 <= k < 2 ^ Z.of_nat w)%Z ->
  length (set_bits w k) <= fuel ->
  wr_loop fuel (wr_make k) (wr_make 0) = Some (map Some (set_bits w k)).
Proof.
  induction fuel as [|fuel IH]; intros w k Hk Hl; cbn [wr_loop];
    change (fst (wr_make 0)) with 0%Z; change (fst (wr_make k)) with k.
  - destruct (Z.eqb_spec k 0) as [->|Hne]; [rewrite set_bits_0; auto|].
    destruct k as [|p|p]; [lia| |lia].
    rewrite set_bits_step in Hl by lia. cbn [length] in Hl. lia.
  - destruct (Z.eqb_spec k 0) as [->|Hne]; [rewrite set_bits_0; auto|].
    destruct k as [|p|p]; [lia| |lia]. change (snd (wr_make (Zpos p))) with (Some (ctz_pos p)).
    rewrite set_bits_step in * by lia. cbn [length] in Hl.
    change (wr_next (wr_make (Zpos p))) with (wr_make (Z.land (Zpos p) (Zpos p - 1))).
    rewrite (IH w) by (auto using clear_low_bound; try lia; apply clear_low_bound; lia).
    auto.
Qed.

Lemma set_bits_true_indices w k l : length l = w ->
  (forall i, i < w -> nth i l false = Z.testbit k (Z.of_nat i)) ->
  set_bits w k = true_indices l.
Proof.
  intros Hl H. unfold set_bits, true_indices. rewrite Hl. apply filter_ext_in.
  intros i Hi. apply in_seq in Hi. symmetry. apply H. lia.
Qed.

(* ------------------------------------------------------------------ *)
(* extract and prepend *)
Lemma bm_word0_bit n b i : 1 <= n -> bm_wf n b -> i < bm_word_bits n ->
  Z.testbit (nth 0 b 0%Z) (Z.of_nat i) = bm_bit n b i.
Proof.
  intros. geom n. unfold bm_bit. rewrite Nat.div_small, Nat.mod_small by lia. auto.
Qed.

Lemma word_bits_ge n : 1 <= n -> n <= bm_word_bits n \/ bm_word_bits n = 64.
Proof.
  intros. geom n. destruct (le_lt_dec n 64).
  - rewrite HGone in HGsw by auto. lia.
  - right; auto.
Qed.

Lemma bm_extract_bit n drop new b i :
  1 <= n -> 1 <= new -> bm_wf n b -> drop + new <= n -> drop + new <= 64 -> i < new ->
  bm_bit new (bm_extract n drop new b) i = bm_bit n b (drop + i).
Proof.
  intros Hn Hnew Hwf Hd H64 Hi. geom n. geom new.
  destruct (word_bits_ge n Hn) as [Hw|Hw]; unfold bm_extract.
  all: destruct (Nat.eqb_spec new 1) as [->|Hne].
  1,3: assert (i = 0) by lia; subst; rewrite bm_of_ullong_bit1, testbit_landpow by lia;
       rewrite (bm_word0_bit n) by (auto; lia); f_equal; lia.
  all: rewrite bm_of_ullong_bit, Z.shiftr_spec by
         (auto; try lia; destruct (word_bits_ge new Hnew); lia);
       rewrite <- Nat2Z.inj_add, (bm_word0_bit n) by (auto; lia); f_equal; lia.
Qed.

Lemma bm_extract_wf n drop new b : 1 <= new -> bm_wf new (bm_extract n drop new b).
Proof.
  intros. unfold bm_extract. destruct (Nat.eqb_spec new 1) as [->|];
    apply bm_of_ullong_wf; lia.
Qed.

Lemma bm_extract_flag_sound n san drop new b :
  1 <= n -> 1 <= new -> bm_wf n b -> (san = true -> bm_clean n b) ->
  drop < n -> drop + new <= 64 ->
  bm_extract_flag n san drop new = true -> bm_clean new (bm_extract n drop new b).
Proof.
  intros Hn Hnew Hwf Hsan Hd H64 Hf. geom n. geom new.
  pose proof (bm_extract_wf n drop new b Hnew) as Hwf'.
  unfold bm_extract_flag in Hf. unfold bm_extract in *.
  destruct (Nat.eqb_spec new 1) as [->|Hne]; [apply clean1; auto|].
  split; auto. intros i Hi. rewrite HGone0 in Hi by lia.
  rewrite bm_of_ullong_bit, Z.shiftr_spec by lia.
  destruct (Z_lt_le_dec (Z.of_nat i + Z.of_nat drop) (Z.of_nat (bm_word_bits n))) as [Hlt|Hge].
  2:{ eapply testbit_above; eauto. apply wf_nth; auto. }
  rewrite <- Nat2Z.inj_add, (bm_word0_bit n) by (auto; lia).
  apply orb_true_iff in Hf as [Hf|Hf]; apply andb_true_iff in Hf as [Hf1 Hf2].
  - apply Nat.eqb_eq in Hf1. apply Nat.leb_le in Hf2.
    destruct (Nat.eq_dec n 1) as [->|Hn1]; [simpl in Hf2; lia|].
    rewrite HGb in Hlt by auto. lia.
  - apply Nat.leb_le in Hf2. apply orb_true_iff in Hf1 as [->|Hf1].
    + apply Hsan; auto. rewrite HGone by lia. lia.
    + apply Nat.eqb_eq in Hf1.
      destruct (Nat.eq_dec n 1) as [->|Hn1].
      { unfold bm_word_bytes in Hf1. simpl in Hf1. lia. }
      rewrite HGb in Hlt by auto. lia.
Qed.

Lemma bm_prepend_spec n m san lsan b lsb :
  1 <= n -> 1 <= m -> n + m <= 64 ->
  bm_wf n b -> bm_wf m lsb -> (lsan = true -> bm_clean m lsb) ->
  bm_wf (n + m) (bm_prepend n m lsan b lsb) /\
  (san = true -> bm_clean n b -> bm_clean (n + m) (bm_prepend n m lsan b lsb)) /\
  (forall i, i < n + m ->
     bm_bit (n + m) (bm_prepend n m lsan b lsb) i
     = if i <? m then bm_bit m lsb i else bm_bit n b (i - m)).
Proof.
  intros Hn Hm H64 Hb Hl Hlc. geom n. geom m. geom (n + m).
  unfold bm_prepend.
  destruct (bm_sanitized_spec m lsan lsb Hm Hl Hlc) as [Hsc Hsb].
  set (ls := bm_sanitized m lsan lsb) in *.
  set (R := n + m) in *.
  assert (HRne : R <> 1) by lia.
  assert (Hbit : forall i, i < bm_word_bits R ->
     bm_bit R (bm_of_ullong R (Z.lor (bm_to_word R
              (Z.shiftl (bm_to_word R (nth 0 b 0%Z)) (Z.of_nat m))) (nth 0 ls 0%Z))) i
     = if i <? m then bm_bit m lsb i
       else ((i - m <? bm_word_bits n) && bm_bit n b (i - m))%bool).
  { intros i Hi. rewrite bm_of_ullong_bit by auto. rewrite Z.lor_spec.
    unfold bm_to_word. destruct (Nat.eqb_spec R 1); [lia|].
    rewrite testbit_mod_pow2, Z.shiftl_spec by lia.
    replace (Z.of_nat i <? _)%Z with true by (symmetry; apply Z.ltb_lt; lia).
    rewrite andb_true_l.
    destruct (Nat.ltb_spec i m) as [Hlt|Hge].
    - rewrite Z.testbit_neg_r by lia. rewrite orb_false_l.
      rewrite HGone0 in HGsw0 by lia.
      rewrite (bm_word0_bit m) by (try apply Hsc; lia). apply Hsb; auto.
    - rewrite HGone0 in HGsw0 by lia. rewrite HGone in HGsw by lia.
      assert (Hz : Z.testbit (nth 0 ls 0%Z) (Z.of_nat i) = false).
      { destruct (le_lt_dec (bm_word_bits m) i).
        - eapply testbit_above; [apply (wf_nth m ls 0); apply Hsc|lia].
        - rewrite (bm_word0_bit m) by (try apply Hsc; lia). apply Hsc.
          rewrite HGone0; lia. }
      rewrite Hz, orb_false_r.
      rewrite testbit_mod_pow2 by lia.
      replace (Z.of_nat i - Z.of_nat m <? _)%Z with true by (symmetry; apply Z.ltb_lt; lia).
      rewrite andb_true_l.
      replace (Z.of_nat i - Z.of_nat m)%Z with (Z.of_nat (i - m)) by lia.
      destruct (Nat.ltb_spec (i - m) (bm_word_bits n)).
      + rewrite andb_true_l. apply (bm_word0_bit n); auto.
      + rewrite andb_false_l. eapply testbit_above; [apply (wf_nth n b 0); auto|lia]. }
  assert (HW : R <= bm_word_bits R) by (rewrite HGone1 in HGsw1 by lia; lia).
  split; [apply bm_of_ullong_wf; lia|]. split.
  - intros _ [_ Hcb]. split; [apply bm_of_ullong_wf; lia|].
    rewrite HGone1 by lia. intros i Hi. rewrite Hbit by lia.
    destruct (Nat.ltb_spec i m); [lia|].
    destruct (Nat.ltb_spec (i - m) (bm_word_bits n)); [|auto].
    simpl. apply Hcb. rewrite HGone by lia. lia.
  - intros i Hi. rewrite Hbit by lia. destruct (Nat.ltb_spec i m); auto.
    replace (i - m <? bm_word_bits n) with true; auto.
    symmetry. apply Nat.ltb_lt. rewrite HGone in HGsw by lia. lia.
Qed.

(* ------------------------------------------------------------------ *)
(* bitset conversion *)
Lemma bits_to_Z_testbit l i : Z.testbit (bits_to_Z l) (Z.of_nat i) = nth i l false.
Proof.
  revert i. induction l as [|b l IH]; intros i.
  - simpl. rewrite Z.bits_0. destruct i; auto.
  - cbn [bits_to_Z]. destruct i as [|i].
    + change (Z.of_nat 0) with 0%Z. cbn [nth]. rewrite Z.add_comm. destruct b; cbn [b2z].
      * rewrite Z.testbit_odd_0. auto.
      * rewrite Z.add_0_r, Z.testbit_even_0. auto.
    + rewrite Nat2Z.inj_succ, Z.add_comm. destruct b; cbn [b2z nth].
      * rewrite Z.testbit_odd_succ by lia. auto.
      * rewrite Z.add_0_r, Z.testbit_even_succ by lia. auto.
Qed.

Lemma bits_to_Z_bound l : (0 <= bits_to_Z l < 2 ^ Z.of_nat (length l))%Z.
Proof.
  induction l as [|b l IH]; [simpl; lia|].
  cbn [bits_to_Z length]. rewrite Nat2Z.inj_succ, Z.pow_succ_r by lia.
  destruct b; simpl b2z; lia.
Qed.

Lemma fsm_from_bitset_spec n l : 1 <= n -> n <= 64 -> length l = n ->
  bm_clean n (fsm_from_bitset n l) /\ bm_list n (fsm_from_bitset n l) = l.
Proof.
  intros Hn H64 Hl. geom n.
  pose proof (bm_of_ullong_wf n (bits_to_Z l) Hn) as Hwf.
  unfold fsm_from_bitset.
  destruct (Nat.eq_dec n 1) as [->|Hne].
  - split; [apply clean1; auto|].
    destruct l as [|b [|]]; try discriminate. destruct b; auto.
  - split.
    + split; auto. rewrite HGone by auto. intros i Hi.
      rewrite bm_of_ullong_bit, bits_to_Z_testbit, nth_overflow by lia. auto.
    + apply nth_eq_ext with false; rewrite bm_list_length; auto. intros i Hi.
      rewrite bm_list_nth, bm_get_bit by auto.
      rewrite bm_of_ullong_bit, bits_to_Z_testbit; auto.
      rewrite HGone in HGsw by auto. lia.
Qed.

Lemma fsm_to_bitset_spec n b : 1 <= n -> n <= 64 -> bm_wf n b ->
  fsm_to_bitset n b = bm_list n b.
Proof.
  intros. unfold fsm_to_bitset, bm_list. apply map_ext_in. intros i Hi.
  apply in_seq in Hi. rewrite bm_single; auto; lia.
Qed.

(* generator *)
Lemma fsm_generate_gen n g m b : 1 <= n -> m <= n -> bm_clean n b ->
  let r := fold_left (fun k i => fsm_set n k i (g i)) (seq 0 m) b in
  bm_clean n r /\
  bm_list n r = map g (seq 0 m) ++ skipn m (bm_list n b).
Proof.
  intros Hn Hm Hc. induction m as [|m IH].
  - simpl. auto.
  - specialize (IH ltac:(lia)). cbv zeta in *. rewrite seq_S, fold_left_app.
    simpl fold_left. destruct IH as [IH1 IH2]. unfold fsm_set at 1 3.
    split; [apply bm_set_clean; auto; lia|].
    rewrite bm_set_list by (try apply IH1; lia). rewrite IH2.
    rewrite upd_app2 by (rewrite map_length, seq_length; auto).
    rewrite map_length, seq_length, Nat.sub_diag.
    rewrite map_app, <- app_assoc. f_equal. simpl.
    assert (Hlen : m < length (bm_list n b)) by (rewrite bm_list_length; lia).
    revert Hlen. generalize (bm_list n b) as l. generalize (g m) as v. clear.
    induction m; destruct l; simpl; intros; try lia; auto.
    apply IHm; lia.
Qed.

Lemma fsm_generate_spec n g : 1 <= n ->
  bm_clean n (fsm_generate n g) /\ bm_list n (fsm_generate n g) = map g (seq 0 n).
Proof.
  intros Hn. destruct (fsm_generate_gen n g n (bm_zero n) Hn ltac:(lia) (bm_zero_clean n))
    as [H1 H2].
  split; auto. unfold fsm_generate. rewrite H2.
  rewrite skipn_all2 by (rewrite bm_list_length; auto). apply app_nil_r.
Qed.

(* ------------------------------------------------------------------ *)
Ltac wclean := eauto using word_op_clean, word_op_and, word_op_or, word_op_xor, bm_not_clean.

Lemma map2_xor_eqb l1 l2 : map negb (map2 xorb l1 l2) = map2 Bool.eqb l1 l2.
Proof.
  rewrite map_map2. apply map2_ext_in. intros [|] [|]; auto.
Qed.

Lemma map3_assign k a b :
  map2 orb (map2 andb a (map negb k)) (map2 andb b k)
  = map3 (fun k a b : bool => if k then b else a) k a b.
Proof.
  revert a b. induction k as [|x k IH]; intros [|y a] [|z b]; simpl; auto.
  f_equal; auto. destruct x, y, z; auto.
Qed.

Lemma map2_assign_true k a :
  map2 orb a k = map2 (fun k a : bool => if k then true else a) k a.
Proof.
  revert a. induction k as [|x k IH]; intros [|y a]; simpl; auto.
  f_equal; auto. destruct x, y; auto.
Qed.

Lemma map2_assign_false k a :
  map2 andb a (map negb k) = map2 (fun k a : bool => if k then false else a) k a.
Proof.
  revert a. induction k as [|x k IH]; intros [|y a]; simpl; auto.
  f_equal; auto. destruct x, y; auto.
Qed.

Lemma bm_and_spec n a b : 1 <= n -> bm_clean n a -> bm_clean n b ->
  bm_clean n (map2 Z.land a b) /\
  bm_list n (map2 Z.land a b) = map2 andb (bm_list n a) (bm_list n b).
Proof.
  intros Hn Ha Hb. split.
  - eapply word_op_clean; eauto using word_op_and.
  - apply word_op_list; auto using word_op_and; [apply Ha|apply Hb].
Qed.
Lemma bm_or_spec n a b : 1 <= n -> bm_clean n a -> bm_clean n b ->
  bm_clean n (map2 Z.lor a b) /\
  bm_list n (map2 Z.lor a b) = map2 orb (bm_list n a) (bm_list n b).
Proof.
  intros Hn Ha Hb. split.
  - eapply word_op_clean; eauto using word_op_or.
  - apply word_op_list; auto using word_op_or; [apply Ha|apply Hb].
Qed.
Lemma bm_xor_spec n a b : 1 <= n -> bm_clean n a -> bm_clean n b ->
  bm_clean n (map2 Z.lxor a b) /\
  bm_list n (map2 Z.lxor a b) = map2 xorb (bm_list n a) (bm_list n b).
Proof.
  intros Hn Ha Hb. split.
  - eapply word_op_clean; eauto using word_op_xor.
  - apply word_op_list; auto using word_op_xor; [apply Ha|apply Hb].
Qed.
Lemma bm_not_spec n a : 1 <= n -> bm_clean n a ->
  bm_clean n (bm_not n true a) /\
  bm_list n (bm_not n true a) = map negb (bm_list n a).
Proof.
  intros Hn Ha. split; [apply bm_not_clean; auto|].
  apply bm_not_list; auto. apply Ha.
Qed.

Lemma fsm_eval_spec n e : 1 <= n -> n <= 64 -> mexpr_ok n e ->
  bm_clean n (fsm_eval n e) /\ bm_list n (fsm_eval n e) = mask_meaning n e.
Proof.
  intros Hn H64. induction e; simpl; intros Hok;
    repeat match goal with
      | H : _ /\ _ |- _ => destruct H
      | H : ?P -> _, H' : ?P |- _ => specialize (H H')
      end;
    repeat match goal with
      | H : _ /\ _ |- _ => destruct H
      | H : bm_list _ _ = mask_meaning _ _ |- _ => rewrite <- H; clear H
      end;
    unfold fsm_bit_not, fsm_bit_and, fsm_bit_or, fsm_bit_xor, fsm_logical_and,
      fsm_logical_or, fsm_eq, fsm_ne, fsm_masked_assign, fsm_masked_assign_bool,
      fsm_set, bm_and, bm_or, bm_xor;
    auto using bm_and_spec, bm_or_spec, bm_xor_spec, bm_not_spec,
      fsm_broadcast_spec, fsm_from_bitset_spec, fsm_generate_spec.
  - (* == *)
    destruct (bm_xor_spec n (fsm_eval n e1) (fsm_eval n e2)) as [C1 L1]; auto.
    destruct (bm_not_spec n _ Hn C1) as [C2 L2]. split; auto.
    rewrite L2, L1. apply map2_xor_eqb.
  - split; [apply bm_set_clean|apply bm_set_list]; auto.
    match goal with H : bm_clean _ _ |- _ => apply H end.
  - rename e1 into k, e2 into a, e3 into b.
    destruct (bm_not_spec n (fsm_eval n k)) as [C1 L1]; auto.
    destruct (bm_and_spec n (fsm_eval n a) (bm_not n true (fsm_eval n k))) as [C2 L2]; auto.
    destruct (bm_and_spec n (fsm_eval n b) (fsm_eval n k)) as [C3 L3]; auto.
    destruct (bm_or_spec n _ _ Hn C2 C3) as [C4 L4]. split; auto.
    rewrite L4, L3, L2, L1. apply map3_assign.
  - destruct (bm_not_spec n (fsm_eval n e1)) as [C1 L1]; auto.
    destruct (bm_and_spec n (fsm_eval n e2) (bm_not n true (fsm_eval n e1))) as [C2 L2]; auto.
    destruct (bm_or_spec n (fsm_eval n e2) (fsm_eval n e1)) as [C3 L3]; auto.
    destruct x; split; auto.
    + rewrite L3. apply map2_assign_true.
    + rewrite L2, L1. apply map2_assign_false.
Qed.

(* ------------------------------------------------------------------ *)
(* results used by the property file *)
Lemma bm_set_bits n b : 1 <= n -> n <= 64 -> bm_wf n b ->
  set_bits n (bm_to_ullong b) = true_indices (bm_list n b).
Proof.
  intros. apply set_bits_true_indices; [apply bm_list_length|].
  intros i Hi. rewrite bm_list_nth by auto. apply bm_single; auto.
Qed.

Lemma bm_iteration n b fuel : 1 <= n -> n <= 64 -> bm_clean n b -> n <= fuel ->
  bit_iteration fuel (bm_to_ullong b) = Some (true_indices (bm_list n b)) /\
  where_range fuel (bm_to_ullong b) = Some (map Some (true_indices (bm_list n b))).
Proof.
  intros Hn H64 Hc Hf. pose proof (to_ullong_bound n b Hn H64 Hc).
  rewrite <- bm_set_bits by (auto; apply Hc). split.
  - apply bit_iteration_spec; auto.
  - apply wr_loop_gen; auto. etransitivity; [apply set_bits_count|]; auto.
Qed.

Lemma some_of_spec n b : 1 <= n -> bm_clean n b ->
  fsm_some_of n b = any_true (bm_list n b) && negb (all_true (bm_list n b)).
Proof.
  intros Hn Hc. unfold fsm_some_of. destruct (Nat.eqb_spec n 1) as [->|Hne].
  - unfold bm_list, any_true, all_true. simpl. destruct (bm_get 1 b 0); auto.
  - rewrite bm_any_list, bm_all_list by (auto; apply Hc). auto.
Qed.

Lemma nth_error_bm_list n b i : i < n -> nth_error (bm_list n b) i = Some (bm_get n b i).
Proof.
  intros. rewrite (nth_error_nth' _ false) by (rewrite bm_list_length; auto).
  rewrite bm_list_nth; auto.
Qed.

Lemma any_true_exists n b : any_true (bm_list n b) = true ->
  exists i, i < n /\ bm_get n b i = true.
Proof.
  unfold any_true, bm_list. intros H. apply existsb_exists in H as (x & Hx & E).
  apply in_map_iff in Hx as (i & <- & Hi). apply in_seq in Hi. exists i. split; [lia|auto].
Qed.

Lemma find_spec n b : 1 <= n -> n <= 64 -> bm_clean n b -> any_true (bm_list n b) = true ->
  is_first_true (bm_list n b) (fsm_find_first_set b) /\
  exists i, fsm_find_last_set b = Z.of_nat i /\ is_last_true (bm_list n b) i.
Proof.
  intros Hn H64 Hc Ha. apply any_true_exists in Ha.
  destruct (fsm_find_first n b Hn H64 Hc Ha) as (F1 & F2 & F3).
  destruct (fsm_find_last n b Hn H64 Hc Ha) as (i & L0 & L1 & L2 & L3).
  split.
  - split; [rewrite nth_error_bm_list by auto; congruence|].
    intros j Hj. rewrite nth_error_bm_list by lia. rewrite F3; auto.
  - exists i. split; auto. split; [rewrite nth_error_bm_list by auto; congruence|].
    rewrite bm_list_length. intros j Hj Hjn.
    rewrite nth_error_bm_list by lia. rewrite L3; auto.
Qed.

Lemma c09_lemma n e : 1 <= n -> n <= 64 -> mexpr_ok n e ->
  bm_list n (fsm_eval n e) = mask_meaning n e.
Proof. intros. apply fsm_eval_spec; auto. Qed.

Lemma c09_wide_lemma n : 1 <= n -> forall a b i x, bm_clean n a -> bm_clean n b -> i < n ->
  bm_list n (bm_and a b) = map2 andb (bm_list n a) (bm_list n b) /\
  bm_list n (bm_or a b) = map2 orb (bm_list n a) (bm_list n b) /\
  bm_list n (bm_xor a b) = map2 xorb (bm_list n a) (bm_list n b) /\
  bm_list n (bm_not n true a) = map negb (bm_list n a) /\
  bm_list n (bm_set n a i x) = upd (bm_list n a) i x /\
  bm_list n (fsm_broadcast n x) = repeat x n /\
  bm_clean n (bm_and a b) /\ bm_clean n (bm_or a b) /\ bm_clean n (bm_xor a b) /\
  bm_clean n (bm_not n true a) /\ bm_clean n (bm_set n a i x) /\
  bm_clean n (fsm_broadcast n x).
Proof.
  intros Hn a b i x Ha Hb Hi. unfold bm_and, bm_or, bm_xor.
  destruct (bm_and_spec n a b Hn Ha Hb), (bm_or_spec n a b Hn Ha Hb),
    (bm_xor_spec n a b Hn Ha Hb), (bm_not_spec n a Hn Ha), (fsm_broadcast_spec n x Hn).
  repeat (split; [first [assumption | apply bm_set_list; auto; apply Ha
                         | apply bm_set_clean; auto]|]). auto.
Qed.

Lemma c10_lemma n e : 1 <= n -> n <= 64 -> mexpr_ok n e ->
  let m := mask_meaning n e in
  let k := fsm_eval n e in
  fsm_all_of n k = all_true m /\
  fsm_any_of n k = any_true m /\
  fsm_none_of n k = negb (any_true m) /\
  fsm_some_of n k = (any_true m && negb (all_true m))%bool /\
  fsm_popcount n k = count_true m /\
  (any_true m = true ->
     is_first_true m (fsm_find_first_set k) /\
     exists i, fsm_find_last_set k = Z.of_nat i /\ is_last_true m i).
Proof.
  intros Hn H64 Hok. destruct (fsm_eval_spec n e Hn H64 Hok) as [Hc Hm].
  cbv zeta. rewrite <- Hm. unfold fsm_all_of, fsm_any_of, fsm_none_of, fsm_popcount.
  split; [apply bm_all_list; auto; apply Hc|].
  split; [apply bm_any_list; auto; apply Hc|].
  split; [apply bm_none_list; auto; apply Hc|].
  split; [apply some_of_spec; auto|].
  split; [apply bm_count_san_list; auto|].
  intros. apply find_spec; auto.
Qed.

Lemma c10_wide_lemma n san b : 1 <= n -> bm_wf n b -> (san = true -> bm_clean n b) ->
  bm_all n san b = all_true (bm_list n b) /\
  bm_any n san b = any_true (bm_list n b) /\
  bm_none n san b = negb (any_true (bm_list n b)).
Proof.
  intros. split; [apply bm_all_list; auto|].
  split; [apply bm_any_list; auto|apply bm_none_list; auto].
Qed.

Lemma c15_fixed_lemma n : 1 <= n -> n <= 64 ->
  (forall l, length l = n -> fsm_to_bitset n (fsm_from_bitset n l) = l) /\
  (forall e, mexpr_ok n e ->
     fsm_to_bitset n (fsm_eval n e) = mask_meaning n e /\
     fsm_from_bitset n (fsm_to_bitset n (fsm_eval n e)) = fsm_eval n e).
Proof.
  intros Hn H64. split.
  - intros l Hl. destruct (fsm_from_bitset_spec n l Hn H64 Hl) as [Hc E].
    rewrite fsm_to_bitset_spec; auto. apply Hc.
  - intros e Hok. destruct (fsm_eval_spec n e Hn H64 Hok) as [Hc E].
    rewrite fsm_to_bitset_spec by (auto; apply Hc). split; [auto|].
    destruct (fsm_from_bitset_spec n (bm_list n (fsm_eval n e)) Hn H64
                (bm_list_length _ _)) as [Hc' E'].
    apply (bm_list_ext n); auto.
Qed.

Lemma c39_lemma n e fuel : 1 <= n -> n <= 64 -> mexpr_ok n e -> n <= fuel ->
  bit_iteration fuel (bm_to_ullong (fsm_eval n e)) = Some (true_indices (mask_meaning n e)) /\
  where_range fuel (bm_to_ullong (fsm_eval n e))
    = Some (map Some (true_indices (mask_meaning n e))).
Proof.
  intros Hn H64 Hok Hf. destruct (fsm_eval_spec n e Hn H64 Hok) as [Hc E].
  rewrite <- E. apply bm_iteration; auto.
Qed.

Lemma c45_partial_lemma n b : 1 <= n -> bm_clean n b ->
  bm_count n true b = count_true (bm_list n b).
Proof. apply bm_count_san_list. Qed.

Lemma c45_n1 b : bm_wf 1 b -> bm_count 1 false b = count_true (bm_list 1 b).
Proof.
  intros. unfold bm_count, bm_list, count_true, bm_get. simpl.
  destruct (nth 0 b 0 =? 0)%Z; auto.
Qed.

Lemma c45_refuted_lemma :
  exists n b, 1 <= n /\ bm_wf n b /\ bm_count n false b <> count_true (bm_list n b).
Proof.
  exists 4, [5%Z]. split; [lia|]. split.
  - split; [reflexivity|]. constructor; [|auto]. simpl. lia.
  - vm_compute. discriminate.
Qed.

Lemma c46_refuted_lemma : forall fuel bits, In 0%Z (wr_ctz_args fuel bits).
Proof. intros. right. left. auto. Qed.
