(* Proofs about conversions from bit masks to vector masks *)
From Coq Require Import List ZArith Lia Bool Arith.
From Verif Require Import Prelude MaskSpec BitMask BitMaskProofs KMask KMaskSpec KMaskProofs
  X86Lanes X86Bits X86ShiftProofs X86Mask X86MaskSpec BoolStore MaskConv MaskConvSpec MaskConvProofs.
Import ListNotations.
Local Open Scope nat_scope.

Definition bits_check (ft : cfeat) (t u : nat) : bool :=
  match bits_vexp ft t u with
  | None => true
  | Some e =>
      let A := aeval true [] e in
      (length A =? u) &&
      forallb (fun p => match nth p A ATop with ALane i => i =? p / t | _ => false end) (seq 0 u)
  end.
Definition four_feats (f vl bw dq : bool) : cfeat :=
  {| c_ssse3 := false; c_avx := false; c_avx2 := false; c_avx512f := f;
     c_avx512vl := vl; c_avx512bw := bw; c_avx512dq := dq |}.
Definition all_bits : bool :=
  forallb (fun f => forallb (fun vl => forallb (fun bw => forallb (fun dq => forallb (fun t =>
    forallb (fun u => bits_check (four_feats f vl bw dq) t u) [16; 32]) [1; 2; 4; 8])
    [true; false]) [true; false]) [true; false]) [true; false].
Lemma all_bits_ok : all_bits = true.
Proof. vm_compute. reflexivity. Qed.

Lemma bits_exps ft t u : (t = 1 \/ t = 2 \/ t = 4 \/ t = 8) -> (u = 16 \/ u = 32) -> bits_check ft t u = true.
Proof.
  intros Ht Hu. unfold bits_check.
  change (bits_vexp ft t u)
    with (bits_vexp (four_feats (c_avx512f ft) (c_avx512vl ft) (c_avx512bw ft) (c_avx512dq ft)) t u).
  pose proof all_bits_ok as H. unfold all_bits in H.
  rewrite forallb_forall in H. specialize (H (c_avx512f ft) ltac:(destruct (c_avx512f ft); cbn; auto)).
  rewrite forallb_forall in H. specialize (H (c_avx512vl ft) ltac:(destruct (c_avx512vl ft); cbn; auto)).
  rewrite forallb_forall in H. specialize (H (c_avx512bw ft) ltac:(destruct (c_avx512bw ft); cbn; auto)).
  rewrite forallb_forall in H. specialize (H (c_avx512dq ft) ltac:(destruct (c_avx512dq ft); cbn; auto)).
  rewrite forallb_forall in H. specialize (H t ltac:(cbn; lia)).
  rewrite forallb_forall in H. specialize (H u ltac:(cbn; lia)). exact H.
Qed.

Lemma bits_exp ft t u size k e i b :
  (t = 1 \/ t = 2 \/ t = 4 \/ t = 8) -> (u = 16 \/ u = 32) -> size <= u ->
  bits_vexp ft t u = Some e -> i * t + b < size -> b < t ->
  nth (i * t + b) (intrin_bitcast (c_avx ft) size (veval [] k e)) None =
  Some (bool_byte (Z.testbit k (Z.of_nat i))).
Proof.
  intros Ht Hu Hsz He Hp Hb. pose proof (bits_exps ft t u Ht Hu) as C. unfold bits_check in C.
  rewrite He in C. cbv zeta in C. apply andb_prop in C as [C1 C2]. apply Nat.eqb_eq in C1.
  rewrite forallb_forall in C2. specialize (C2 (i * t + b) ltac:(apply in_seq; lia)).
  rewrite div_pos in C2 by auto.
  set (lv := fun i => Some (Z.testbit k (Z.of_nat i))).
  pose proof (aeval_sound lv true [] [] k e ltac:(constructor) ltac:(intros; reflexivity)) as A.
  assert (Hlen : length (veval [] k e) = u) by (rewrite <- C1; symmetry; eapply Forall2_len; eauto).
  rewrite intrin_bitcast_nth by lia.
  pose proof (Forall2_nth' _ _ _ (i * t + b) A) as R.
  destruct (nth (i * t + b) (aeval true [] e) ATop) as [j| |]; try discriminate.
  apply Nat.eqb_eq in C2. subst j. exact R.
Qed.

Lemma land_bit v i : negb (Z.land v (2 ^ Z.of_nat i) =? 0)%Z = Z.testbit v (Z.of_nat i).
Proof. apply (k_get_bit v i). Qed.

Lemma uns_bit w v i : i < w -> Z.testbit (uns (Z.of_nat w) v) (Z.of_nat i) = Z.testbit v (Z.of_nat i).
Proof. intros. unfold uns. apply Z.mod_pow2_bits_low. lia. Qed.

Lemma div_bit v p i : (Z.testbit (v / 2 ^ Z.of_nat p) (Z.of_nat i) = Z.testbit v (Z.of_nat (p + i)))%Z.
Proof. rewrite <- Z.shiftr_div_pow2 by lia. rewrite Z.shiftr_spec by lia. f_equal. lia. Qed.

Lemma small_bits k np i : (0 <= k < 2 ^ Z.of_nat np)%Z -> np <= i -> Z.testbit k (Z.of_nat i) = false.
Proof.
  intros Hk Hi. rewrite <- (Z.mod_small k (2 ^ Z.of_nat np)) by auto.
  apply Z.mod_pow2_bits_high. lia.
Qed.

Lemma pshufb_ok k i : i < 64 -> pshufb_bit k i = Z.testbit k (Z.of_nat i).
Proof.
  intros Hi. unfold pshufb_bit. cbv zeta. rewrite land_bit.
  replace (8 * Z.of_nat (i / 8))%Z with (Z.of_nat (8 * (i / 8))) by lia.
  change (?v mod 2 ^ 8)%Z with (uns (Z.of_nat 8) v).
  pose proof (Nat.mod_upper_bound i 8 ltac:(lia)). pose proof (Nat.div_mod i 8 ltac:(lia)) as E.
  rewrite uns_bit by auto. rewrite div_bit. rewrite <- E.
  change 64%Z with (Z.of_nat 64). apply uns_bit. auto.
Qed.

(* the multiplications *)
Definition chars_check (g : Z -> list byte) (n : nat) : bool :=
  forallb (fun x => let r := g (Z.of_nat x) in
    (length r =? n) &&
    forallb (fun p => match nth p r None with
                      | Some v => (v =? bool_byte (Z.testbit (Z.of_nat x) (Z.of_nat p)))%Z
                      | None => false
                      end) (seq 0 n)) (seq 0 128).
Lemma chars4_check : chars_check (chars4 7) 4 = true.
Proof. vm_compute. reflexivity. Qed.
Lemma chars7_check : chars_check (chars7 7) 8 = true.
Proof. vm_compute. reflexivity. Qed.

Lemma chars_nth g n x p : chars_check g n = true -> (0 <= x < 128)%Z -> p < n ->
  length (g x) = n /\ nth p (g x) None = Some (bool_byte (Z.testbit x (Z.of_nat p))).
Proof.
  intros C Hx Hp. unfold chars_check in C. rewrite forallb_forall in C.
  specialize (C (Z.to_nat x) ltac:(apply in_seq; lia)). cbv zeta in C. rewrite Z2Nat.id in C by lia.
  apply andb_prop in C as [C1 C2]. apply Nat.eqb_eq in C1. split; auto.
  rewrite forallb_forall in C2. specialize (C2 p ltac:(apply in_seq; lia)).
  destruct (nth p (g x) None); [|discriminate]. apply Z.eqb_eq in C2. subst. auto.
Qed.

Lemma chars4_np np k : chars4 np k = chars4 7 (if 7 <? np then Z.land k 15 else k).
Proof. unfold chars4. cbv zeta. destruct (Nat.ltb_spec 7 np), (Nat.ltb_spec 7 7); auto; lia. Qed.
Lemma chars7_np np k : chars7 np k = chars7 7 (if 7 <? np then Z.land k 127 else k).
Proof. unfold chars7. cbv zeta. destruct (Nat.ltb_spec 7 np), (Nat.ltb_spec 7 7); auto; lia. Qed.

Lemma land_ones_lt k p : (0 <= k)%Z -> (0 <= p)%Z -> (0 <= Z.land k (Z.ones p) < 2 ^ p)%Z.
Proof. intros. rewrite Z.land_ones by lia. apply Z.mod_pos_bound. apply Z.pow_pos_nonneg; lia. Qed.

Lemma copy_nth size v p d : p < size -> nth p (copy_to_zero size v) d =
  if p <? length v then nth p v d else Some 0%Z.
Proof.
  intros Hp. unfold copy_to_zero. destruct (Nat.ltb_spec p (length v)).
  - rewrite app_nth1 by (rewrite firstn_length; lia). apply nth_firstn_lt. auto.
  - rewrite app_nth2 by (rewrite firstn_length; lia). rewrite nth_repeat_lt; auto.
    rewrite firstn_length. lia.
Qed.

Lemma bits_tail_ok ft t m k i b : vec_dest ft t m -> i < m -> b < t ->
  nth (i * t + b) (bits_tail ft t m k) None = Some (bool_byte (Z.testbit k (Z.of_nat i))).
Proof.
  intros (Ht & Hm & Htm & Havx & Havx2) Hi Hb.
  destruct (sizes t m Ht Hm Htm) as (Hv & Hd & Hbc & Hbig & Hsmall).
  destruct (lanes_ge t m i b ltac:(lia) Hd Hb Hi) as [Hli Hp].
  unfold bits_tail. cbv zeta.
  destruct (Nat.eqb_spec m 2) as [->|Hm2].
  { rewrite nth_spread; [|auto|].
    - destruct i as [|[|i]]; [reflexivity|reflexivity|lia].
    - cbn [length]. lia. }
  destruct (negb (c_avx2 ft) && c_avx ft && (vec_size t m =? 32)) eqn:E.
  { apply andb_prop in E as [E E3]. apply andb_prop in E as [E1 E2]. apply Nat.eqb_eq in E3.
    rewrite nth_spread by (auto; rewrite map_length, seq_length; auto).
    rewrite nth_map_seq by auto. cbn [Nat.add]. rewrite land_bit, uns_bit; auto.
    assert (4 <= t).
    { destruct (le_lt_dec 4 t); auto. exfalso.
      assert (16 < t * m) by (destruct (le_lt_dec (t * m) 16) as [Hle|]; auto; specialize (Hsmall Hle); lia).
      rewrite Havx2 in E1 by auto. discriminate. }
    nia. }
  destruct (Nat.leb_spec m (8 * t)) as [Hw|Hw].
  - rewrite nth_spread by (auto; rewrite map_length, seq_length; auto).
    rewrite nth_map_seq by auto. cbn [Nat.add]. destruct (Nat.ltb_spec i m); [|lia].
    set (bit := Z.land (uns (Z.of_nat (8 * t)) k) (2 ^ Z.of_nat i)).
    assert (Eb : negb (bit =? 0)%Z = Z.testbit k (Z.of_nat i)).
    { unfold bit. rewrite land_bit. apply uns_bit. lia. }
    destruct (Nat.ltb_spec m (8 * t)) as [Hlt|]; [|rewrite Eb; auto].
    rewrite <- Eb. f_equal. f_equal.
    assert (Eb' : bit = if Z.testbit k (Z.of_nat i) then (2 ^ Z.of_nat i)%Z else 0%Z).
    { apply Z.bits_inj'. intros j Hj. unfold bit. rewrite Z.land_spec, Z.pow2_bits_eqb by lia.
      destruct (Z.eqb_spec (Z.of_nat i) j) as [<-|Hne].
      - rewrite uns_bit by lia. destruct (Z.testbit k (Z.of_nat i)).
        + rewrite Z.pow2_bits_true by lia. auto.
        + rewrite Z.bits_0. auto.
      - rewrite andb_false_r. destruct (Z.testbit k (Z.of_nat i)).
        + rewrite Z.pow2_bits_false by lia. auto.
        + rewrite Z.bits_0. auto. }
    rewrite Eb'. unfold sgn. destruct (Z.testbit k (Z.of_nat i)).
    + assert (0 < 2 ^ Z.of_nat i)%Z by (apply Z.pow_pos_nonneg; lia).
      assert (2 ^ Z.of_nat i < 2 ^ (Z.of_nat (8 * t) - 1))%Z by (apply Z.pow_lt_mono_r; lia).
      destruct (Z.ltb_spec (2 ^ Z.of_nat i) (2 ^ (Z.of_nat (8 * t) - 1))); [|lia].
      destruct (Z.ltb_spec 0 (2 ^ Z.of_nat i)), (Z.eqb_spec (2 ^ Z.of_nat i) 0); auto; lia.
    + assert (0 < 2 ^ (Z.of_nat (8 * t) - 1))%Z by (apply Z.pow_pos_nonneg; lia).
      destruct (Z.ltb_spec 0 (2 ^ (Z.of_nat (8 * t) - 1))); [|lia]. reflexivity.
  - rewrite nth_spread by (auto; rewrite map_length, seq_length; auto).
    rewrite nth_map_seq by auto. cbn [Nat.add]. rewrite land_bit.
    pose proof (Nat.mod_upper_bound i (8 * t) ltac:(lia)).
    rewrite uns_bit by auto. rewrite div_bit. do 4 f_equal.
    symmetry. apply Nat.div_mod. lia.
Qed.

Theorem bits_all ft const np t m k i b :
  cfeat_ok ft -> vec_dest ft t m -> 1 <= np <= 64 -> (0 <= k < 2 ^ Z.of_nat np)%Z -> i < m -> b < t ->
  nth (i * t + b) (x86_bits_to_vec ft const np t m k) None = Some (bool_byte (Z.testbit k (Z.of_nat i))).
Proof.
  intros Hft Hdest Hnp Hk Hi Hb. pose proof Hdest as (Ht & Hm & Htm & Havx & Havx2).
  destruct (sizes t m Ht Hm Htm) as (Hv & Hd & Hbc & Hbig & Hsmall).
  destruct (lanes_ge t m i b ltac:(lia) Hd Hb Hi) as [Hli Hp].
  unfold x86_bits_to_vec. cbv zeta.
  destruct (Nat.eqb_spec np 1) as [->|Hnp1].
  { unfold bool_to_vec. assert (Hk' : k = 0%Z \/ k = 1%Z) by (cbn in Hk; lia).
    destruct i as [|i].
    - rewrite app_nth1 by (rewrite repeat_length; lia). rewrite nth_repeat_lt by lia.
      destruct Hk' as [->| ->]; reflexivity.
    - rewrite app_nth2 by (rewrite repeat_length; lia). rewrite nth_repeat_lt by (rewrite repeat_length; lia).
      rewrite (small_bits k 1) by (auto; lia). reflexivity. }
  destruct const.
  { rewrite nth_spread by (auto; rewrite map_length, seq_length; auto).
    rewrite nth_map_seq by auto. cbn [Nat.add]. destruct (Nat.ltb_spec i (Nat.min m np)); [auto|].
    rewrite (small_bits k np) by (auto; lia). auto. }
  assert (Hu : intrin_size t m = 16 \/ intrin_size t m = 32).
  { unfold intrin_size. destruct (le_lt_dec (t * m) 16) as [Hle|Hgt]; [specialize (Hsmall Hle)|specialize (Hbig Hgt)]; lia. }
  assert (Hvu : vec_size t m <= intrin_size t m) by (unfold intrin_size; lia).
  destruct (bits_vexp ft t (intrin_size t m)) as [e|] eqn:Ee.
  { apply (bits_exp ft t (intrin_size t m)); auto. }
  destruct ((t =? 1) && (intrin_size t m =? 16) && c_ssse3 ft) eqn:E1.
  { apply andb_prop in E1 as [E1 _]. apply andb_prop in E1 as [E1 E2]. apply Nat.eqb_eq in E1, E2. subst t.
    assert (b = 0) by lia. subst b.
    assert (L : length (spread 1 (map (pshufb_bit k) (seq 0 16))) = 16) by reflexivity.
    rewrite intrin_bitcast_nth by (rewrite ?L; lia).
    rewrite nth_spread by (auto; rewrite map_length, seq_length; lia).
    rewrite nth_map_seq by lia. cbn [Nat.add]. rewrite pshufb_ok by lia. auto. }
  destruct ((t =? 1) && (intrin_size t m =? 32) && c_avx2 ft) eqn:E2.
  { apply andb_prop in E2 as [E2 _]. apply andb_prop in E2 as [E2 E3]. apply Nat.eqb_eq in E2, E3. subst t.
    assert (b = 0) by lia. subst b.
    rewrite nth_spread by (auto; rewrite map_length, seq_length; lia).
    rewrite nth_map_seq by lia. cbn [Nat.add]. rewrite pshufb_ok by lia. auto. }
  destruct ((t =? 1) && (Nat.min m np <=? 4)) eqn:E3.
  { apply andb_prop in E3 as [E3 E4]. apply Nat.eqb_eq in E3. apply Nat.leb_le in E4. subst t.
    assert (b = 0) by lia. subst b. rewrite Nat.mul_1_r, Nat.add_0_r in *.
    set (x := if 7 <? np then Z.land k 15 else k).
    assert (Hx : (0 <= x < 128)%Z /\ (i < 4 -> Z.testbit x (Z.of_nat i) = Z.testbit k (Z.of_nat i))).
    { unfold x. destruct (Nat.ltb_spec 7 np).
      - pose proof (land_ones_lt k 4 ltac:(lia) ltac:(lia)) as H4. change (Z.ones 4) with 15%Z in H4.
        change (2 ^ 4)%Z with 16%Z in H4. split; [lia|]. intros Hi4.
        rewrite Z.land_spec. change 15%Z with (Z.ones 4). rewrite Z.ones_spec_low by lia. apply andb_true_r.
      - split; auto. split; [lia|]. eapply Z.lt_le_trans; [apply Hk|].
        change 128%Z with (2 ^ 7)%Z. apply Z.pow_le_mono_r; lia. }
    destruct Hx as [Hx Hxi].
    destruct (chars_nth _ _ x 0 chars4_check Hx ltac:(lia)) as [HL _].
    rewrite copy_nth by auto. rewrite chars4_np. fold x. rewrite HL.
    destruct (Nat.ltb_spec i 4) as [Hi4|Hi4].
    - destruct (chars_nth _ _ x i chars4_check Hx ltac:(lia)) as [_ E]. rewrite E, Hxi by auto. auto.
    - rewrite (small_bits k np) by (auto; lia). auto. }
  destruct ((t =? 1) && (Nat.min m np <=? 7)) eqn:E4.
  { apply andb_prop in E4 as [E4 E5]. apply Nat.eqb_eq in E4. apply Nat.leb_le in E5. subst t.
    assert (b = 0) by lia. subst b. rewrite Nat.mul_1_r, Nat.add_0_r in *.
    set (x := if 7 <? np then Z.land k 127 else k).
    assert (Hx : (0 <= x < 128)%Z /\ (i < 7 -> Z.testbit x (Z.of_nat i) = Z.testbit k (Z.of_nat i))).
    { unfold x. destruct (Nat.ltb_spec 7 np).
      - pose proof (land_ones_lt k 7 ltac:(lia) ltac:(lia)) as H4. change (Z.ones 7) with 127%Z in H4.
        change (2 ^ 7)%Z with 128%Z in H4. split; [lia|]. intros Hi4.
        rewrite Z.land_spec. change 127%Z with (Z.ones 7). rewrite Z.ones_spec_low by lia. apply andb_true_r.
      - split; auto. split; [lia|]. eapply Z.lt_le_trans; [apply Hk|].
        change 128%Z with (2 ^ 7)%Z. apply Z.pow_le_mono_r; lia. }
    destruct Hx as [Hx Hxi].
    destruct (chars_nth _ _ x 0 chars7_check Hx ltac:(lia)) as [HL _].
    rewrite copy_nth by auto. rewrite chars7_np. fold x. rewrite HL.
    destruct (Nat.ltb_spec i 8) as [Hi4|Hi4].
    - destruct (chars_nth _ _ x i chars7_check Hx ltac:(lia)) as [_ E]. rewrite E.
      destruct (le_lt_dec 7 i) as [H7|H7]; [|rewrite Hxi by auto; auto].
      rewrite (small_bits x 7) by (auto; lia). rewrite (small_bits k np) by (auto; lia). auto.
    - rewrite (small_bits k np) by (auto; lia). auto. }
  apply bits_tail_ok; auto.
Qed.
