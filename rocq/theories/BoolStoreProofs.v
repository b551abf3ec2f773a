From Coq Require Import List ZArith Bool Arith Lia.
From Verif Require Import Prelude MaskSpec BitMask KMask KMaskSpec X86Lanes X86Mask X86MaskSpec BoolStore
  BoolStoreSpec BitMaskProofs KMaskProofs X86Bits X86ShiftProofs X86MaskProofs.
Import ListNotations.
Local Open Scope Z_scope.

(* ------------------------------------------------------------------ *)
(* sequences of writes that each write the right bytes *)
Definition good (n : nat) (T : nat -> Z) (w : nat * list Z) : Prop :=
  (fst w + length (snd w) <= n)%nat /\
  forall j, (j < length (snd w))%nat -> nth j (snd w) 0 = T (fst w + j)%nat.
Definition covers (ws : list (nat * list Z)) (i : nat) : Prop :=
  exists w, In w ws /\ (fst w <= i < fst w + length (snd w))%nat.

Lemma run_good n T ws : Forall (good n T) ws -> forall m,
  (forall i, covers ws i -> run_writes ws m i = T i) /\
  (forall i, (n <= i)%nat -> run_writes ws m i = m i) /\
  (forall i, m i = T i -> run_writes ws m i = T i).
Proof.
  induction 1 as [|[o b] ws [Hn Hb] Hws IH]; intros m.
  - repeat split; auto. intros i (w & [] & _).
  - cbn [fst snd] in *. unfold run_writes in *. cbn [fold_left].
    destruct (IH (write m (o, b))) as (I1 & I2 & I3).
    assert (Hw : forall i, (o <= i < o + length b)%nat -> write m (o, b) i = T i).
    { intros i Hi. unfold write. cbn [fst snd].
      destruct (Nat.leb_spec o i), (Nat.ltb_spec i (o + length b)); cbn [andb]; try lia.
      rewrite Hb by lia. f_equal. lia. }
    assert (Hw' : forall i, ~ (o <= i < o + length b)%nat -> write m (o, b) i = m i).
    { intros i Hi. unfold write. cbn [fst snd].
      destruct (Nat.leb_spec o i), (Nat.ltb_spec i (o + length b)); cbn [andb]; auto; lia. }
    split; [|split].
    + intros i (w & [<-|Hin] & Hi).
      * apply I3. apply Hw. auto.
      * apply I1. exists w. auto.
    + intros i Hi. rewrite I2 by auto. apply Hw'. lia.
    + intros i Hi. apply I3. destruct (le_lt_dec o i), (lt_dec i (o + length b)); try (apply Hw; lia);
        rewrite Hw' by lia; auto.
Qed.

Lemma stores_good l ws :
  Forall (good (length l) (fun i => b2z (nth i l false))) ws ->
  (forall i, (i < length l)%nat -> covers ws i) -> stores ws l.
Proof.
  intros Hg Hc m i. destruct (run_good _ _ _ Hg m) as (H1 & H2 & _).
  destruct (nth_error l i) as [b|] eqn:E.
  - assert (i < length l)%nat by (apply nth_error_Some; congruence).
    rewrite H1 by auto. rewrite (nth_error_nth _ _ false E). destruct b; auto.
  - apply nth_error_None in E. auto.
Qed.

(* a single write of all bytes *)
Lemma stores_one l bytes : bytes = map (fun b => b2z b) l -> stores [(0%nat, bytes)] l.
Proof.
  intros ->. apply stores_good.
  - constructor; [|constructor]. split; cbn [fst snd]; rewrite map_length; [lia|].
    intros j Hj. change 0 with (b2z false). rewrite map_nth. auto.
  - intros i Hi. eexists. split; [left; reflexivity|]. cbn [fst snd]. rewrite map_length. lia.
Qed.

(* ------------------------------------------------------------------ *)
(* bytes *)
Lemma nth_map_seq {A} (f : nat -> A) n i d : (i < n)%nat -> nth i (map f (seq 0 n)) d = f i.
Proof.
  intros H. rewrite (nth_indep _ d (f 0%nat)) by (rewrite map_length, seq_length; auto).
  rewrite map_nth, seq_nth by auto. auto.
Qed.
Lemma le_bytes_len ts v : length (le_bytes ts v) = ts.
Proof. unfold le_bytes. rewrite map_length, seq_length. auto. Qed.
Lemma le_bytes_nth ts v j : (j < ts)%nat -> nth j (le_bytes ts v) 0 = (v / 2 ^ (8 * Z.of_nat j)) mod 2 ^ 8.
Proof.
  intros H. unfold le_bytes. rewrite nth_map_seq by auto. auto.
Qed.
Lemma firstn_nth {A} (l : list A) n i d : (i < n)%nat -> nth i (firstn n l) d = nth i l d.
Proof.
  revert n i. induction l; intros [|n] [|i] H; cbn; auto; try lia. apply IHl. lia.
Qed.
Lemma store_le_len ts req v : (req <= ts)%nat -> length (store_int false ts req v) = req.
Proof. intros. unfold store_int. rewrite firstn_length, le_bytes_len. lia. Qed.
Lemma store_le_nth ts req v j : (req <= ts)%nat -> (j < req)%nat ->
  nth j (store_int false ts req v) 0 = (v / 2 ^ (8 * Z.of_nat j)) mod 2 ^ 8.
Proof. intros. unfold store_int. rewrite firstn_nth, le_bytes_nth by lia. auto. Qed.

Lemma land1 z : Z.land z 1 = b2z (Z.testbit z 0).
Proof.
  apply Z.bits_inj'. intros i Hi. rewrite Z.land_spec.
  destruct (Z.eq_dec i 0) as [->|Hz].
  - destruct (Z.testbit z 0); auto.
  - replace (Z.testbit 1 i) with false.
    + rewrite andb_false_r. destruct (Z.testbit z 0); cbn [b2z].
      * symmetry. rewrite Z.testbit_eqb by auto. rewrite Z.div_small; auto.
        split; [lia|]. apply Z.pow_gt_1; lia.
      * rewrite Z.bits_0. auto.
    + symmetry. rewrite Z.testbit_eqb by auto. rewrite Z.div_small; auto. split; [lia|]. apply Z.pow_gt_1; lia.
Qed.

(* byte j of z & 0x...010101 is bit 8j of z *)
Lemma byte_of_land z M j : (M / 2 ^ (8 * Z.of_nat j)) mod 2 ^ 8 = 1 ->
  (Z.land z M / 2 ^ (8 * Z.of_nat j)) mod 2 ^ 8 = b2z (Z.testbit z (8 * Z.of_nat j)).
Proof.
  intros HM. rewrite land_div by lia. rewrite land_mod by lia. rewrite HM, land1. f_equal.
  rewrite Z.mod_pow2_bits_low by lia. rewrite Z.div_pow2_bits by lia. f_equal.
Qed.

Lemma tb_odd z i : 0 <= i -> Z.testbit z i = Z.odd (z / 2 ^ i).
Proof. intros. rewrite <- Z.bit0_odd, Z.div_pow2_bits by lia. f_equal. Qed.

(* low r bits as a list *)
Lemma bits_ext x y r : (forall j, (j < r)%nat -> Z.testbit x (Z.of_nat j) = Z.testbit y (Z.of_nat j)) ->
  0 <= x < 2 ^ Z.of_nat r -> 0 <= y < 2 ^ Z.of_nat r -> x = y.
Proof.
  intros H Hx Hy. apply (lane_ext (Z.of_nat r)); auto. intros i Hi.
  rewrite <- (Z2Nat.id i) by lia. apply H. lia.
Qed.
Lemma of_lanes_lt l : 0 <= of_lanes l < 2 ^ Z.of_nat (length l).
Proof. pose proof (of_lanes_nonneg l). pose proof (of_lanes_bound l). lia. Qed.

Lemma as_bits x r : 0 <= x < 2 ^ Z.of_nat r ->
  x = of_lanes (map (fun j => Z.testbit x (Z.of_nat j)) (seq 0 r)).
Proof.
  intros H. apply (bits_ext _ _ r); auto.
  - intros j Hj. rewrite of_lanes_bit. rewrite nth_map_seq by auto. auto.
  - pose proof (of_lanes_lt (map (fun j => Z.testbit x (Z.of_nat j)) (seq 0 r))) as G.
    rewrite map_length, seq_length in G. auto.
Qed.

(* the multiplication tricks *)
Lemma mul7 x i : 0 <= x < 2 ^ 7 -> (i < 7)%nat ->
  Z.testbit (uns 64 (x * 0x40810204081)) (8 * Z.of_nat i) = Z.testbit x (Z.of_nat i).
Proof.
  intros H Hi. rewrite (as_bits x 7) by auto. cbn [seq map].
  generalize (Z.testbit x (Z.of_nat 0)) (Z.testbit x (Z.of_nat 1)) (Z.testbit x (Z.of_nat 2))
    (Z.testbit x (Z.of_nat 3)) (Z.testbit x (Z.of_nat 4)) (Z.testbit x (Z.of_nat 5)) (Z.testbit x (Z.of_nat 6)).
  intros a b c d e f g.
  do 7 (destruct i; [destruct a, b, c, d, e, f, g; reflexivity|]). lia.
Qed.
Lemma mul4 x i : 0 <= x < 2 ^ 4 -> (i < 4)%nat ->
  Z.testbit (x * 0x204081) (8 * Z.of_nat i) = Z.testbit x (Z.of_nat i).
Proof.
  intros H Hi. rewrite (as_bits x 4) by auto. cbn [seq map].
  generalize (Z.testbit x (Z.of_nat 0)) (Z.testbit x (Z.of_nat 1)) (Z.testbit x (Z.of_nat 2))
    (Z.testbit x (Z.of_nat 3)). intros a b c d.
  do 4 (destruct i; [destruct a, b, c, d; reflexivity|]). lia.
Qed.
Lemma mul3 x i : 0 <= x < 2 ^ 3 -> (i < 3)%nat ->
  Z.testbit (x * 0x4081) (8 * Z.of_nat i) = Z.testbit x (Z.of_nat i).
Proof.
  intros H Hi. rewrite (as_bits x 3) by auto. cbn [seq map].
  generalize (Z.testbit x (Z.of_nat 0)) (Z.testbit x (Z.of_nat 1)) (Z.testbit x (Z.of_nat 2)). intros a b c.
  do 3 (destruct i; [destruct a, b, c; reflexivity|]). lia.
Qed.
Lemma mul2 x i : 0 <= x < 2 ^ 2 -> (i < 2)%nat ->
  Z.testbit (x * 0x81) (8 * Z.of_nat i) = Z.testbit x (Z.of_nat i).
Proof.
  intros H Hi. rewrite (as_bits x 2) by auto. cbn [seq map].
  generalize (Z.testbit x (Z.of_nat 0)) (Z.testbit x (Z.of_nat 1)). intros a b.
  do 2 (destruct i; [destruct a, b; reflexivity|]). lia.
Qed.

(* pdep *)
Lemma tb_succ x k : Z.testbit x (Z.of_nat (S k)) = Z.testbit (x / 2) (Z.of_nat k).
Proof. rewrite Nat2Z.inj_succ. change 2 with (2 ^ 1). rewrite Z.div_pow2_bits by lia. f_equal. Qed.
Lemma tb_zero x : Z.testbit x (Z.of_nat 0) = Z.odd x.
Proof. apply Z.bit0_odd. Qed.
Ltac spread := rewrite ?tb_succ, tb_zero;
  repeat match goal with |- context [Z.odd ?t] => generalize (Z.odd t); intro end;
  repeat match goal with b : bool |- _ => destruct b end; reflexivity.

Lemma pdep64 x i : (i < 8)%nat ->
  (pdep 64 0 x 0x0101010101010101 / 2 ^ (8 * Z.of_nat i)) mod 2 ^ 8 = b2z (Z.testbit x (Z.of_nat i)).
Proof.
  intros Hi.
  assert (E : pdep 64 0 x 0x0101010101010101 =
    b2z (Z.odd x) * 2 ^ 0 + (b2z (Z.odd (x / 2)) * 2 ^ 8 + (b2z (Z.odd (x / 2 / 2)) * 2 ^ 16 +
    (b2z (Z.odd (x / 2 / 2 / 2)) * 2 ^ 24 + (b2z (Z.odd (x / 2 / 2 / 2 / 2)) * 2 ^ 32 +
    (b2z (Z.odd (x / 2 / 2 / 2 / 2 / 2)) * 2 ^ 40 + (b2z (Z.odd (x / 2 / 2 / 2 / 2 / 2 / 2)) * 2 ^ 48 +
    (b2z (Z.odd (x / 2 / 2 / 2 / 2 / 2 / 2 / 2)) * 2 ^ 56 + 0)))))))) by reflexivity.
  rewrite E. clear E.
  do 8 (destruct i as [|i]; [spread|]). lia.
Qed.
Lemma pdep32 x i : (i < 4)%nat ->
  (pdep 32 0 x 0x01010101 / 2 ^ (8 * Z.of_nat i)) mod 2 ^ 8 = b2z (Z.testbit x (Z.of_nat i)).
Proof.
  intros Hi.
  assert (E : pdep 32 0 x 0x01010101 =
    b2z (Z.odd x) * 2 ^ 0 + (b2z (Z.odd (x / 2)) * 2 ^ 8 + (b2z (Z.odd (x / 2 / 2)) * 2 ^ 16 +
    (b2z (Z.odd (x / 2 / 2 / 2)) * 2 ^ 24 + 0)))) by reflexivity.
  rewrite E. clear E.
  do 4 (destruct i as [|i]; [spread|]). lia.
Qed.

(* ------------------------------------------------------------------ *)
(* the bits of a fixed_size mask *)
Lemma word1 n k : (1 <= n <= 64)%nat -> bm_clean n k ->
  0 <= nth 0 k 0 < 2 ^ Z.of_nat n /\
  (forall j, (j < n)%nat -> Z.testbit (nth 0 k 0) (Z.of_nat j) = nth j (bm_list n k) false).
Proof.
  intros Hn [[Hl Hw] Hc]. geom n. assert (HA : bm_array_size n = 1%nat) by (apply HGone; lia).
  destruct k as [|x [|? ?]]; cbn [length] in Hl; try lia. cbn [nth].
  inversion Hw as [|? ? Hx _]; subst.
  assert (Hb : forall j, (j < bm_word_bits n)%nat -> bm_bit n [x] j = Z.testbit x (Z.of_nat j)).
  { intros j Hj. unfold bm_bit. rewrite Nat.div_small, Nat.mod_small by lia. auto. }
  assert (Hge : (n <= bm_word_bits n)%nat) by (rewrite HA in *; lia).
  split.
  - apply (lane_of_bits (Z.of_nat n) x); [lia|lia|].
    intros i Hi. destruct (Z_lt_le_dec i (Z.of_nat (bm_word_bits n))) as [G|G].
    + rewrite <- (Z2Nat.id i) by lia. rewrite <- Hb by lia. apply Hc. rewrite HA. lia.
    + apply (tb_small x (Z.of_nat (bm_word_bits n))); auto.
  - intros j Hj. rewrite bm_list_nth by auto. rewrite bm_get_bit; [|lia| |lia].
    + rewrite Hb by lia. auto.
    + split; auto.
Qed.

Lemma ext_ok n k off : (1 <= n <= 64)%nat -> bm_clean n k -> (off < n)%nat ->
  0 <= ext n k off < 2 ^ Z.of_nat (n - off) /\
  (forall j, (j < n - off)%nat -> Z.testbit (ext n k off) (Z.of_nat j) = nth (off + j) (bm_list n k) false).
Proof.
  intros Hn Hk Ho. unfold ext.
  assert (Hc : bm_clean (n - off) (bm_extract n off (n - off) k)).
  { apply (bm_extract_flag_sound n true); try lia; auto. apply Hk.
    unfold bm_extract_flag. destruct (Nat.eqb_spec (n - off) 1); auto.
    replace (n - off + off)%nat with n by lia. rewrite Nat.leb_refl. cbn. apply orb_true_r. }
  destruct (word1 (n - off) _ ltac:(lia) Hc) as [H1 H2]. split; auto.
  intros j Hj. rewrite H2 by auto. rewrite !bm_list_nth by lia. rewrite !bm_get_bit; try lia; try apply Hk; try apply Hc.
  rewrite bm_extract_bit; auto; try lia. apply Hk.
Qed.

Lemma len_list n k : length (bm_list n k) = n.
Proof. unfold bm_list. rewrite map_length, seq_length. auto. Qed.
Lemma uns_small w v : 0 <= v < 2 ^ w -> uns w v = v.
Proof. apply Z.mod_small. Qed.

Definition byte_is (l : list bool) (i : nat) : Z := b2z (nth i l false).

(* ------------------------------------------------------------------ *)
(* the generic stores *)
Lemma tb_uns v w i : 0 <= i < w -> Z.testbit (uns w v) i = Z.testbit v i.
Proof. intros. unfold uns. apply Z.mod_pow2_bits_low. lia. Qed.

Lemma chunk4_good n k i : (4 <= n <= 64)%nat -> bm_clean n k -> (i < div_roundup n 4)%nat ->
  Forall (good n (byte_is (bm_list n k))) (chunk4 false n k i).
Proof.
  intros Hn Hk Hi.
  assert (Ho : (i * 4 < n)%nat).
  { unfold div_roundup in Hi. pose proof (Nat.mul_div_le (n + 4 - 1) 4). lia. }
  destruct (ext_ok n k (i * 4) ltac:(lia) Hk Ho) as [E1 E2].
  unfold chunk4. cbv zeta. destruct (_ && _)%bool eqn:C.
  - apply andb_true_iff in C. destruct C as [C1 C2]. apply Nat.ltb_lt in C1. apply Nat.leb_le in C2.
    constructor; [|constructor]. split; cbn [fst snd]; rewrite store_le_len by lia; [lia|].
    intros j Hj. rewrite store_le_nth by lia.
    rewrite byte_of_land by (do 7 (destruct j; [reflexivity|]); lia).
    rewrite mul7; [rewrite E2 by lia; auto| |lia].
    split; [lia|]. apply Z.lt_le_trans with (2 ^ Z.of_nat (n - i * 4)); [lia|].
    apply Z.pow_le_mono_r; lia.
  - destruct (Nat.leb_spec 4 (n - i * 4)); [|constructor].
    apply andb_false_iff in C.
    constructor; [|constructor]. split; cbn [fst snd]; rewrite store_le_len by lia; [lia|].
    intros j Hj. rewrite store_le_nth by lia.
    rewrite byte_of_land by (do 4 (destruct j; [reflexivity|]); lia).
    destruct (Nat.ltb_spec 7 (n - i * 4)).
    + rewrite mul4; [|change 0xf with (Z.ones 4); rewrite Z.land_ones by lia; apply Z.mod_pos_bound; lia|lia].
      change 0xf with (Z.ones 4). rewrite Z.land_ones, Z.mod_pow2_bits_low by lia.
      rewrite tb_uns by lia. rewrite E2 by lia. auto.
    + assert (n - i * 4 = 4)%nat.
      { destruct C as [C|C]; [apply Nat.ltb_ge in C|apply Nat.leb_gt in C]; lia. }
      replace (n - i * 4)%nat with 4%nat in E1 by lia.
      rewrite uns_small by (change (2 ^ Z.of_nat 4) with 16 in E1; lia).
      rewrite mul4 by (auto; lia). rewrite E2 by lia. auto.
Qed.

Lemma chunk4_covers n k i : (4 <= n)%nat -> (i < n)%nat ->
  covers (flat_map (chunk4 false n k) (seq 0 (div_roundup n 4))) i.
Proof.
  intros Hn Hi.
  assert (Hq : (i = 4 * (i / 4) + i mod 4 /\ i mod 4 < 4)%nat) by (split; [apply Nat.div_mod; lia|apply Nat.mod_upper_bound; lia]).
  set (q0 := (i / 4)%nat) in *. clearbody q0. set (r0 := (i mod 4)%nat) in *. clearbody r0.
  assert (Hr : forall q, (q * 4 < n)%nat -> In q (seq 0 (div_roundup n 4))).
  { intros q Hq'. apply in_seq. unfold div_roundup. split; [lia|].
    apply Nat.div_le_lower_bound with (b := 4%nat) (q := S q); lia. }
  destruct (le_lt_dec 4 (n - (q0) * 4)) as [H|H].
  - destruct (chunk4 false n k (q0)) as [|w t] eqn:E.
    + exfalso. unfold chunk4 in E. cbv zeta in E. destruct (_ && _)%bool; [discriminate|].
      destruct (Nat.leb_spec 4 (n - (q0) * 4)); [discriminate|lia].
    + exists w. split; [apply in_flat_map; exists q0; split; [apply Hr; lia|rewrite E; left; auto]|].
      unfold chunk4 in E. cbv zeta in E. destruct (_ && _)%bool eqn:C.
      * apply andb_true_iff in C. destruct C as [C1 C2]. apply Nat.ltb_lt in C1. apply Nat.leb_le in C2.
        injection E as <- <-. cbn [fst snd]. rewrite store_le_len by lia. lia.
      * destruct (Nat.leb_spec 4 (n - (q0) * 4)); [|discriminate].
        injection E as <- <-. cbn [fst snd]. rewrite store_le_len by lia. lia.
  - assert (1 <= q0)%nat by lia.
    exists (((q0 - 1) * 4)%nat, store_int false 8 (n - (q0 - 1) * 4)
       (Z.land (uns 64 (ext n k ((q0 - 1) * 4) * 0x40810204081)) 0x0101010101010101)).
    split.
    + apply in_flat_map. exists (q0 - 1)%nat. split; [apply Hr; lia|]. unfold chunk4. cbv zeta.
      destruct (Nat.ltb_spec 4 (n - (q0 - 1) * 4)), (Nat.leb_spec (n - (q0 - 1) * 4) 7); cbn [andb]; try lia.
      left. auto.
    + cbn [fst snd]. rewrite store_le_len by lia. lia.
Qed.

Lemma small_store ts n k z M : (2 <= n <= ts)%nat -> (n <= 64)%nat -> bm_clean n k ->
  (forall j, (j < n)%nat -> (M / 2 ^ (8 * Z.of_nat j)) mod 2 ^ 8 = 1) ->
  (forall j, (j < n)%nat -> Z.testbit z (8 * Z.of_nat j) = Z.testbit (nth 0 k 0) (Z.of_nat j)) ->
  store_int false ts n (Z.land z M) = map (fun b => b2z b) (bm_list n k).
Proof.
  intros Hn H64 Hk HM Hz. apply nth_ext with (d := 0) (d' := b2z false).
  - rewrite store_le_len, map_length, len_list; lia.
  - rewrite store_le_len by lia. intros j Hj. rewrite store_le_nth by lia.
    rewrite (map_nth (fun b => b2z b)). rewrite byte_of_land by auto. rewrite Hz by auto.
    destruct (word1 n k) as [_ H]; auto; try lia. rewrite H; auto.
Qed.

Lemma store_bool_array_ok n k : (1 <= n <= 64)%nat -> bm_clean n k ->
  stores (store_bool_array false n k) (bm_list n k).
Proof.
  intros Hn Hk. destruct (word1 n k ltac:(lia) Hk) as [W1 W2]. unfold store_bool_array, bm_to_ullong.
  destruct (Nat.eqb_spec n 1) as [->|N1].
  { apply stores_one. reflexivity. }
  destruct (Nat.eqb_spec n 2) as [->|N2].
  { apply stores_one. apply small_store; auto; try lia.
    - do 2 (destruct j; [reflexivity|]). lia.
    - intros. apply mul2; auto. }
  destruct (Nat.eqb_spec n 3) as [->|N3].
  { apply stores_one. apply small_store; auto; try lia.
    - do 3 (destruct j; [reflexivity|]). lia.
    - intros. apply mul3; auto. }
  apply stores_good; rewrite len_list.
  - apply Forall_flat_map. apply Forall_forall. intros i Hi. apply in_seq in Hi. apply chunk4_good; auto; lia.
  - intros. apply chunk4_covers; lia.
Qed.

(* ------------------------------------------------------------------ *)
(* x86, bit masks *)
Lemma firstn_all_bits n lanes (g : nat -> Z) l : (n <= lanes)%nat -> length l = n ->
  (forall j, (j < n)%nat -> g j = b2z (nth j l false)) ->
  firstn n (map g (seq 0 lanes)) = map (fun b => b2z b) l.
Proof.
  intros Hn Hl Hg. apply nth_ext with (d := 0) (d' := b2z false).
  - rewrite firstn_length, !map_length, seq_length. lia.
  - rewrite firstn_length, map_length, seq_length. intros j Hj.
    rewrite firstn_nth, nth_map_seq by lia. rewrite (map_nth (fun b => b2z b)). apply Hg. lia.
Qed.

Lemma chunks_cover (sz n : nat) (f : nat -> nat * list Z) i : (1 <= sz)%nat -> (i < n)%nat ->
  (forall q, (q * sz < n)%nat -> fst (f q) = (q * sz)%nat /\ length (snd (f q)) = Nat.min sz (n - q * sz)) ->
  covers (map f (seq 0 (div_roundup n sz))) i.
Proof.
  intros Hs Hi Hf.
  assert (Hq : (i = sz * (i / sz) + i mod sz /\ i mod sz < sz)%nat)
    by (split; [apply Nat.div_mod; lia|apply Nat.mod_upper_bound; lia]).
  set (q := (i / sz)%nat) in *. clearbody q. set (r := (i mod sz)%nat) in *. clearbody r.
  assert (Hlt : (q * sz < n)%nat) by lia. destruct (Hf q Hlt) as [E1 E2].
  exists (f q). rewrite E1, E2. split; [|lia].
  apply in_map. apply in_seq. split; [lia|]. unfold div_roundup.
  apply Nat.div_le_lower_bound with (b := sz) (q := S q); lia.
Qed.
Lemma roundup_lt n sz q : (1 <= sz)%nat -> (q < div_roundup n sz)%nat -> (q * sz < n)%nat.
Proof.
  intros Hs. unfold div_roundup. intros H. assert (P : (sz * ((n + sz - 1) / sz) <= n + sz - 1)%nat) by (apply Nat.mul_div_le; lia). nia.
Qed.

Lemma chunk_pdep_shape (x64 : bool) n k q : let sz := (if x64 then 8 else 4)%nat in (q * sz < n)%nat ->
  fst (chunk_pdep x64 n k q) = (q * sz)%nat /\
  length (snd (chunk_pdep x64 n k q)) = Nat.min sz (n - q * sz).
Proof.
  cbv zeta. intros H. unfold chunk_pdep. cbv zeta.
  set (sz := (if x64 then 8 else 4)%nat) in *.
  destruct (Nat.eqb_spec (Nat.min sz (n - q * sz)) 1) as [E|E]; cbn [fst snd].
  - rewrite E. auto.
  - rewrite store_le_len by lia. auto.
Qed.
Lemma chunk_pdep_good (x64 : bool) n k q : (1 <= n <= 64)%nat -> bm_clean n k ->
  let sz := (if x64 then 8 else 4)%nat in (q * sz < n)%nat ->
  good n (byte_is (bm_list n k)) (chunk_pdep x64 n k q).
Proof.
  cbv zeta. intros Hn Hk H. destruct (chunk_pdep_shape x64 n k q H) as [E1 E2].
  split; [rewrite E1, E2; lia|]. rewrite E2. intros j Hj. rewrite E1. revert Hj.
  destruct (ext_ok n k _ Hn Hk H) as [X1 X2]. clear E1 E2.
  unfold chunk_pdep. cbv zeta.
  destruct (Nat.eqb_spec (Nat.min (if x64 then 8 else 4) (n - q * (if x64 then 8 else 4))) 1) as [E|E]; cbn [snd]; intros Hj.
  - rewrite E in Hj. destruct j; [|lia]. cbn [nth]. unfold byte_is. rewrite Nat.add_0_r, bm_list_nth by lia. auto.
  - destruct x64; rewrite store_le_nth by lia; unfold byte_is.
    + rewrite pdep64, X2 by lia. auto.
    + rewrite pdep32, tb_uns, X2 by lia. auto.
Qed.

Lemma bit_byte v j : 0 <= j -> uns 8 ((if Z.land v (2 ^ j) =? 0 then 255 else 0) + 1) = b2z (Z.testbit v j).
Proof.
  intros Hj. pose proof (k_get_bit v (Z.to_nat j)) as H. unfold k_get in H. rewrite Z2Nat.id in H by auto.
  rewrite <- H. destruct (Z.land v (2 ^ j) =? 0); auto.
Qed.
Lemma sse2_bits bits j : (j < 16)%nat ->
  nth j (bools16_sse2 bits) 0 = b2z (Z.testbit bits (Z.of_nat j)).
Proof.
  intros Hj.
  assert (B : forall c i, (c < 2)%nat -> (i < 8)%nat ->
    Z.testbit ((bits / 2 ^ (8 * Z.of_nat c)) mod 2 ^ 8) (Z.of_nat i) = Z.testbit bits (Z.of_nat (8 * c + i))).
  { intros c i Hc Hi. rewrite Z.mod_pow2_bits_low, Z.div_pow2_bits by lia. f_equal. lia. }
  unfold bools16_sse2. cbv zeta. unfold le_bytes. cbn [seq map repeat app].
  pose proof (B 0%nat) as B0. pose proof (B 1%nat) as B1. clear B.
  set (b0 := (bits / 2 ^ (8 * Z.of_nat 0)) mod 2 ^ 8) in *. clearbody b0.
  set (b1 := (bits / 2 ^ (8 * Z.of_nat 1)) mod 2 ^ 8) in *. clearbody b1.
  set (b2 := (bits / 2 ^ (8 * Z.of_nat 2)) mod 2 ^ 8) in *. clearbody b2.
  set (b3 := (bits / 2 ^ (8 * Z.of_nat 3)) mod 2 ^ 8) in *. clearbody b3.
  cbn [unpacklo_self dup pairs unpairs firstn length Nat.div Nat.divmod fst snd map2 map bit_index].
  unfold unpacklo_self. cbn [dup pairs unpairs firstn length Nat.div Nat.divmod fst snd map2 map bit_index].
  destruct (le_lt_dec 8 j) as [H8|H8].
  - replace (Z.of_nat j) with (Z.of_nat (8 * 1 + (j - 8))) by lia. rewrite <- B1 by lia.
    rewrite <- bit_byte by lia. clear - Hj H8.
    do 8 (destruct j; [lia|]). do 8 (destruct j; [reflexivity|]). lia.
  - replace (Z.of_nat j) with (Z.of_nat (8 * 0 + j)) by lia. rewrite <- B0 by lia.
    rewrite <- bit_byte by lia. clear - H8.
    do 8 (destruct j; [reflexivity|]). lia.
Qed.

Lemma pk16 b : packs16 (packs32 (b2z b)) = b2z b.
Proof. destruct b; reflexivity. Qed.
Lemma avx512_bits todo bits j : (j < todo)%nat -> (todo <= 16)%nat ->
  nth j (bools16_avx512f todo bits) 0 = b2z (Z.testbit bits (Z.of_nat j)).
Proof.
  intros Hj Ht. unfold bools16_avx512f. cbv zeta. cbn [seq map].
  destruct (Nat.ltb_spec 8 todo).
  - cbn [firstn skipn app map repeat]. rewrite !pk16.
    do 16 (destruct j; [reflexivity|]). lia.
  - cbn [firstn skipn app map repeat]. rewrite !pk16.
    do 8 (destruct j; [reflexivity|]). lia.
Qed.
Lemma avx512_len todo bits : length (bools16_avx512f todo bits) = 16%nat.
Proof. unfold bools16_avx512f. cbv zeta. destruct (8 <? todo)%nat; reflexivity. Qed.
Lemma sse2_len bits : length (bools16_sse2 bits) = 16%nat.
Proof. reflexivity. Qed.

Lemma chunk16_shape f n k q : (q * 16 < n)%nat ->
  fst (chunk16 f n k q) = (q * 16)%nat /\ length (snd (chunk16 f n k q)) = Nat.min 16 (n - q * 16).
Proof.
  intros H. unfold chunk16. cbv zeta. cbn [fst snd]. split; auto.
  rewrite firstn_length. destruct (b_avx512f f); rewrite ?avx512_len, ?sse2_len; lia.
Qed.
Lemma chunk16_good f n k q : (1 <= n <= 64)%nat -> bm_clean n k -> (q * 16 < n)%nat ->
  good n (byte_is (bm_list n k)) (chunk16 f n k q).
Proof.
  intros Hn Hk H. destruct (chunk16_shape f n k q H) as [E1 E2].
  split; [rewrite E1, E2; lia|]. rewrite E2. intros j Hj. rewrite E1. clear E1 E2.
  destruct (ext_ok n k _ Hn Hk H) as [X1 X2].
  unfold chunk16. cbv zeta. cbn [snd]. rewrite firstn_nth by lia. unfold byte_is.
  destruct (b_avx512f f); [rewrite avx512_bits by lia|rewrite sse2_bits by lia];
    rewrite tb_uns, X2 by lia; auto.
Qed.

Lemma x86_store_ok f n k : (1 <= n <= 64)%nat -> bm_clean n k ->
  stores (x86_store_bool_array f n k) (bm_list n k).
Proof.
  intros Hn Hk. destruct (word1 n k Hn Hk) as [W1 W2]. unfold x86_store_bool_array, bm_to_ullong.
  destruct (b_bwvl f).
  { cbv zeta. apply stores_one. apply firstn_all_bits.
    - destruct (Nat.leb_spec n 16), (Nat.leb_spec n 32); lia.
    - apply len_list.
    - intros j Hj. rewrite W2 by auto. destruct (nth j (bm_list n k) false); auto. }
  destruct (b_bmi2 f).
  { destruct (Nat.leb_spec n 4).
    - apply stores_one. apply nth_ext with (d := 0) (d' := b2z false).
      + rewrite store_le_len, map_length, len_list; lia.
      + rewrite store_le_len by lia. intros j Hj. rewrite store_le_nth by lia.
        rewrite (map_nth (fun b => b2z b)). rewrite pdep32, W2 by lia. auto.
    - apply stores_good; rewrite len_list.
      + apply Forall_map. apply Forall_forall. intros q Hq. apply in_seq in Hq.
        apply chunk_pdep_good; auto. apply roundup_lt; [destruct (b_x64 f); lia|lia].
      + intros i Hi. apply chunks_cover; auto; [destruct (b_x64 f); lia|].
        intros q Hq. apply chunk_pdep_shape. auto. }
  destruct (b_sse2 f && (7 <? n)%nat)%bool.
  { apply stores_good; rewrite len_list.
    - apply Forall_map. apply Forall_forall. intros q Hq. apply in_seq in Hq.
      apply chunk16_good; auto. apply roundup_lt; lia.
    - intros i Hi. apply chunks_cover; auto; [lia|]. intros q Hq. apply chunk16_shape. auto. }
  apply store_bool_array_ok; auto.
Qed.

(* every fixed_size mask *)
Lemma fixed_store_ok x86 n k : (1 <= n <= 64)%nat -> bm_clean n k ->
  stores (fixed_store x86 false n k) (bm_list n k).
Proof.
  intros Hn Hk. unfold fixed_store. destruct (Nat.eqb_spec n 1) as [->|].
  - apply stores_one. reflexivity.
  - destruct x86; [apply x86_store_ok|apply store_bool_array_ok]; auto.
Qed.

(* ------------------------------------------------------------------ *)
(* AVX-512 mask registers *)
Lemma k_store_ok bwvl x64 n k l : size_ok n -> (bwvl = true \/ (n <= 16)%nat) ->
  map (k_get k) (seq 0 n) = l -> stores (k_store bwvl x64 n k) l.
Proof.
  unfold size_ok. intros Hn Hf <-.
  assert (G : forall j, (j < n)%nat -> nth j (map (k_get k) (seq 0 n)) false = Z.testbit k (Z.of_nat j)).
  { intros j Hj. rewrite nth_map_seq by auto. apply k_get_bit. }
  unfold k_store. destruct bwvl; [|destruct (Nat.leb_spec n 8)]; cbv zeta; apply stores_one.
  - apply firstn_all_bits; [destruct (Nat.leb_spec n 16), (Nat.leb_spec n 32); lia|rewrite map_length, seq_length; auto|].
    intros j Hj. rewrite G by auto. destruct (Z.testbit k (Z.of_nat j)); auto.
  - apply nth_ext with (d := 0) (d' := b2z false).
    + rewrite firstn_length, !map_length, seq_length. destruct x64; rewrite app_length, !le_bytes_len; cbn; lia.
    + rewrite firstn_length. intros j Hj. rewrite firstn_nth by lia.
      rewrite (map_nth (fun b => b2z b)), G by lia. destruct x64.
      * rewrite app_nth1, le_bytes_nth by (rewrite ?le_bytes_len; lia). apply pdep64. lia.
      * destruct (le_lt_dec 4 j).
        -- rewrite app_nth2, le_bytes_nth by (rewrite ?le_bytes_len; lia). rewrite le_bytes_len.
           rewrite pdep32 by lia. f_equal. rewrite Z.div_pow2_bits by lia. f_equal. lia.
        -- rewrite app_nth1, le_bytes_nth by (rewrite ?le_bytes_len; lia). apply pdep32. lia.
  - destruct Hf as [Hf|Hf]; [discriminate|].
    apply firstn_all_bits; [lia|rewrite map_length, seq_length; auto|].
    intros j Hj. rewrite G by auto. destruct (Z.testbit k (Z.of_nat j)); auto.
Qed.

(* ------------------------------------------------------------------ *)
(* vector masks *)
Lemma firstn_map_pad {A} (g : A -> Z) (f : bool -> A) l pad n : length l = n -> (forall b, g (f b) = b2z b) ->
  firstn n (map g (map f l ++ pad)) = map (fun b => b2z b) l.
Proof.
  intros Hl Hg. rewrite map_app, firstn_app, !map_length, Hl, Nat.sub_diag. cbn [firstn].
  rewrite app_nil_r, firstn_all2 by (rewrite !map_length; lia). rewrite map_map. apply map_ext. auto.
Qed.

Lemma base_store_ok s x l : shape_ok s -> holds s x l -> stores (base_store s x) l.
Proof.
  intros Hs (Hx & Hl & Hn & _). apply stores_good; rewrite Hl.
  - apply Forall_map. apply Forall_forall. intros i Hi. apply in_seq in Hi.
    split; cbn [fst snd length]; [lia|]. intros j Hj. destruct j; [|lia]. cbn [nth].
    rewrite Nat.add_0_r. rewrite Hn by lia. pose proof (ones_pos s Hs). unfold ones, lw in H.
    destruct (nth i l false); auto.
    destruct (Z.eqb_spec (2 ^ (8 * Z.of_nat (sz s)) - 1) 0); auto. lia.
  - intros i Hi. eexists. split; [apply in_map_iff; exists i; split; [reflexivity|apply in_seq; lia]|].
    cbn [fst snd length]. lia.
Qed.

Lemma join_even_cut16 a : forall l, l = a ->
  map (fun v => v / 2 ^ 15) (join 8 (map packs16 (cut 16 l)))
  = map (fun v => (packs16 (v mod 2 ^ 16) + 2 ^ 8 * packs16 (v / 2 ^ 16)) / 2 ^ 15) a.
Proof. intros l ->. induction a; cbn [cut map join]; auto. rewrite IHa. auto. Qed.

Lemma vec_bytes_ok avx2 s x l : shape_ok s -> holds s x l ->
  vec_bytes avx2 s x = map (fun b => b2z b) l.
Proof.
  intros Hs Hh. destruct (intrin_split s x l Hh Hs) as (pad & Ea & Hp).
  destruct (holds_split s x l Hh Hs) as [Ex _].
  assert (Hl : length l = sn s) by apply Hh.
  assert (Hla : length (to_intrin s x) = rl s).
  { rewrite Ea, app_length, map_length. destruct Hs as (_ & _ & ? & ? & ? & _). lia. }
  assert (Hlane : lane_of s = fun b => if b then 2 ^ (8 * Z.of_nat (sz s)) - 1 else 0) by reflexivity.
  destruct Hs as (Hz & _ & Hn & Hn2 & Hr & Hreg).
  unfold vec_bytes. cbv zeta.
  destruct (Nat.eqb_spec (rl s * sz s) 16) as [E|E].
  - destruct Hz as [Ez|[Ez|[Ez|Ez]]]; rewrite Ez in *; rewrite ?Ez.
    + rewrite Ex. apply firstn_map_pad; auto. rewrite Hlane. intros []; reflexivity.
    + rewrite Ea, (map_app (fun v => v / 2 ^ 15)), <- app_assoc, (map_map (lane_of s)). apply firstn_map_pad; auto. rewrite Hlane. intros []; reflexivity.
    + assert (Er : rl s = 4%nat) by lia. rewrite Er in *. rewrite Ea in *. rewrite app_length, map_length in Hla.
      apply nth_ext with (d := 0) (d' := b2z false).
      * rewrite store_le_len, map_length; lia.
      * rewrite store_le_len by lia. intros j Hj. rewrite store_le_nth by lia. rewrite (map_nth (fun b => b2z b)).
        rewrite byte_of_land by (do 4 (destruct j; [reflexivity|]); lia).
        assert (Hpk : forall v, lane_ok 8 (packs16 (packs32 v))) by (intros; apply lane_mod; lia).
        assert (Hb : forall b, Z.testbit (packs16 (packs32 (lane_of s b))) 0 = b) by (rewrite Hlane; intros []; reflexivity).
        assert (Hbyte : forall p0 p1 p2 p3 i, lane_ok 8 p0 -> lane_ok 8 p1 -> lane_ok 8 p2 -> (i < 4)%nat ->
          Z.testbit (p0 + 2 ^ 8 * p1 + 2 ^ 16 * (p2 + 2 ^ 8 * p3)) (8 * Z.of_nat i) =
          Z.testbit (nth i [p0; p1; p2; p3] 0) 0).
        { intros p0 p1 p2 p3 i H0 H1 H2 Hi. rewrite tb_join; [|lia|apply (lane_join 8); auto; lia|lia].
          destruct (Z.ltb_spec (8 * Z.of_nat i) 16); rewrite tb_join by (auto; lia);
          (match goal with |- context [?a <? 8] => destruct (Z.ltb_spec a 8) end);
          (destruct i as [|[|[|[|i]]]]; try lia; reflexivity). }
        destruct l as [|a0 [|a1 l]]; cbn [length] in *; try lia.
        destruct l as [|a2 [|a3 [|? ?]]]; cbn [length] in *; try lia.
        -- destruct pad as [|p0 [|p1 [|? ?]]]; cbn [length] in *; try lia.
           cbn [map app repeat]. unfold as32. cbn [join nth]. rewrite Hbyte by (auto; lia).
           destruct j as [|[|j]]; cbn [nth]; rewrite ?Hb; auto; lia.
        -- destruct pad as [|p0 [|? ?]]; cbn [length] in *; try lia.
           cbn [map app repeat]. unfold as32. cbn [join nth]. rewrite Hbyte by (auto; lia).
           destruct j as [|[|[|j]]]; cbn [nth]; rewrite ?Hb; auto; lia.
        -- destruct pad as [|p0 ?]; cbn [length] in *; try lia.
           cbn [map app repeat]. unfold as32. cbn [join nth]. rewrite Hbyte by (auto; lia).
           destruct j as [|[|[|[|j]]]]; cbn [nth]; rewrite ?Hb; auto; lia.
    + assert (Er : rl s = 2%nat) by lia. assert (En : sn s = 2%nat) by lia.
      rewrite Ea. destruct l as [|a [|b [|? ?]]]; cbn [length] in *; try lia.
      rewrite Hlane. cbn [map app cut]. destruct a, b; reflexivity.
  - assert (E32 : (rl s * sz s = 32)%nat) by lia.
    destruct Hz as [Ez|[Ez|[Ez|Ez]]]; rewrite Ez in *; rewrite ?Ez.
    + rewrite Ex. apply firstn_map_pad; auto. rewrite Hlane. intros []; reflexivity.
    + destruct avx2; rewrite Ea.
      * rewrite map_map. apply firstn_map_pad; auto. rewrite Hlane. intros []; reflexivity.
      * rewrite map_map. apply firstn_map_pad; auto. rewrite Hlane. intros []; reflexivity.
    + rewrite (join_even_cut16 _ _ eq_refl). rewrite Ea.
      rewrite (map_app (fun v => (packs16 (v mod 2 ^ 16) + 2 ^ 8 * packs16 (v / 2 ^ 16)) / 2 ^ 15)), <- app_assoc, (map_map (lane_of s)).
      apply firstn_map_pad; auto. rewrite Hlane. intros []; reflexivity.
    + assert (Er : rl s = 4%nat) by lia. rewrite Er in *. rewrite Ea in *. rewrite app_length, map_length in Hla.
      apply nth_ext with (d := 0) (d' := b2z false).
      * rewrite store_le_len, map_length; lia.
      * rewrite store_le_len by lia. intros j Hj. rewrite store_le_nth by lia. rewrite (map_nth (fun b => b2z b)).
        rewrite byte_of_land by (do 4 (destruct j; [reflexivity|]); lia).
        replace (8 * Z.of_nat j) with (Z.of_nat (8 * j)) by lia. rewrite of_lanes_bit. f_equal.
        assert (Hfm : forall L i d, (i < length L)%nat ->
          nth (8 * i) (flat_map (byte_signs 8) L) d = Z.testbit (nth i L 0) 7).
        { clear. intros L. induction L as [|v L IH]; cbn [length]; intros i d Hi; [lia|].
          cbn [flat_map]. destruct i.
          - reflexivity.
          - rewrite app_nth2; unfold byte_signs; rewrite map_length, seq_length; [|lia].
            replace (8 * S i - 8)%nat with (8 * i)%nat by lia. cbn [nth]. apply IH. lia. }
        rewrite Hfm by (rewrite app_length, map_length; lia).
        rewrite app_nth1 by (rewrite map_length; lia).
        rewrite (nth_indep _ 0 (lane_of s false)) by (rewrite map_length; lia).
        rewrite map_nth, Hlane. destruct (nth j l false); reflexivity.
Qed.

Lemma vec_store_ok avx2 s x l : shape_ok s -> holds s x l -> stores (vec_store avx2 s x) l.
Proof. intros Hs Hh. apply stores_one. apply vec_bytes_ok; auto. Qed.

(* ------------------------------------------------------------------ *)
(* big-endian *)
Lemma be_two k m : bm_clean 2 k ->
  run_writes (store_bool_array true 2 k) m 0 = b2z (bm_get 2 k 1) /\
  run_writes (store_bool_array true 2 k) m 1 = b2z (bm_get 2 k 0).
Proof.
  intros Hk. destruct (word1 2 k ltac:(lia) Hk) as [W1 W2].
  pose proof (W2 0%nat ltac:(lia)) as T0. pose proof (W2 1%nat ltac:(lia)) as T1.
  rewrite !bm_list_nth in T0, T1 by lia. rewrite <- T0, <- T1.
  unfold store_bool_array, bm_to_ullong. cbn [Nat.eqb]. unfold run_writes. cbn [fold_left].
  unfold write, store_int. cbn [fst snd le_bytes seq map rev app firstn length Nat.add Nat.leb Nat.ltb andb Nat.sub nth].
  rewrite <- (mul2 (nth 0 k 0) 0), <- (mul2 (nth 0 k 0) 1) by (auto; lia).
  rewrite !byte_of_land by reflexivity. auto.
Qed.
Lemma be_four k m i : bm_clean 4 k -> (i < 4)%nat ->
  run_writes (store_bool_array true 4 k) m i = b2z (bm_get 4 k (3 - i)).
Proof.
  intros Hk Hi.
  destruct (ext_ok 4 k 0 ltac:(lia) Hk ltac:(lia)) as [W1 W2]. cbn [Nat.sub Nat.add] in W1, W2.
  rewrite <- (bm_list_nth 4 k (3 - i) false) by lia. rewrite <- W2 by lia.
  rewrite <- (mul4 (ext 4 k 0) (3 - i)) by (auto; lia).
  rewrite <- (byte_of_land _ 0x01010101) by (do 4 (destruct i; [reflexivity|]); lia).
  unfold store_bool_array. cbn [Nat.eqb]. change (div_roundup 4 4) with 1%nat.
  cbn [seq flat_map app]. unfold chunk4. change (4 - 0 * 4)%nat with 4%nat. change (0 * 4)%nat with 0%nat. cbv zeta.
  change ((4 <? 4) && (4 <=? 7))%nat with false. change (4 <=? 4)%nat with true. change (7 <? 4)%nat with false. cbv iota.
  rewrite uns_small by (change (2 ^ Z.of_nat 4) with 16 in W1; lia).
  unfold run_writes. cbn [fold_left app]. unfold write, store_int, le_bytes.
  cbn [fst snd seq map rev app firstn length].
  do 4 (destruct i as [|i]; [reflexivity|]). lia.
Qed.

Lemma c30_fixed_x86 f be n e : (1 <= n -> n <= 64 -> mexpr_ok n e ->
  stores (fixed_store (Some f) be n (fsm_eval n e)) (mask_meaning n e))%nat.
Proof.
  intros H1 H2 He. rewrite <- (c09_lemma n e H1 H2 He).
  change (fixed_store (Some f) be n (fsm_eval n e)) with (fixed_store (Some f) false n (fsm_eval n e)).
  apply fixed_store_ok; auto. apply fsm_eval_spec; auto.
Qed.
Lemma c30_fixed_generic n e : (1 <= n -> n <= 64 -> mexpr_ok n e ->
  stores (fixed_store None false n (fsm_eval n e)) (mask_meaning n e))%nat.
Proof.
  intros H1 H2 He. rewrite <- (c09_lemma n e H1 H2 He).
  apply fixed_store_ok; auto. apply fsm_eval_spec; auto.
Qed.
