(* Conversions between all mask representations: the elements of the result *)
From Coq Require Import List ZArith Lia Bool Arith.
From Verif Require Import Prelude MaskSpec BitMask BitMaskProofs KMask KMaskSpec KMaskProofs
  X86Lanes X86Bits X86ShiftProofs X86Mask X86MaskSpec X86MaskProofs BoolStore BoolStoreProofs
  MaskConv MaskConvSpec MaskConvProofs MaskConvBits.
Import ListNotations.
Local Open Scope nat_scope.

Lemma resized_length m l : length (resized m l) = m.
Proof. unfold resized. rewrite map_length, seq_length. auto. Qed.
Lemma resized_nth m l i : i < m -> nth i (resized m l) false = nth i l false.
Proof. intros. unfold resized. rewrite nth_map_seq by auto. auto. Qed.
Lemma resized_eq m l : length l = m -> resized m l = l.
Proof.
  intros H. apply (nth_eq_ext _ _ false); [rewrite resized_length; auto|].
  intros i Hi. rewrite resized_length in Hi. apply resized_nth. auto.
Qed.

(* the single word of a fixed_size mask *)
Lemma clean_word n b : 1 <= n <= 64 -> bm_clean n b ->
  (0 <= bm_to_ullong b < 2 ^ Z.of_nat n)%Z /\
  forall i, Z.testbit (bm_to_ullong b) (Z.of_nat i) = (i <? n) && bm_bit n b i.
Proof.
  intros Hn [Hwf Hc]. geom n. rewrite HGone in * by lia. unfold bm_to_ullong.
  pose proof (wf_nth n b 0 Hwf) as Hw.
  assert (B : forall i, Z.testbit (nth 0 b 0%Z) (Z.of_nat i) = (i <? n) && bm_bit n b i).
  { intros i. destruct (le_lt_dec (bm_word_bits n) i) as [Hi|Hi].
    - rewrite (small_bits _ (bm_word_bits n)) by auto.
      destruct (Nat.ltb_spec i n); [|auto]. lia.
    - rewrite (bm_word0_bit n) by (auto; lia). destruct (Nat.ltb_spec i n); [auto|].
      cbn [andb]. apply Hc. lia. }
  split; [|exact B]. split; [lia|].
  replace (nth 0 b 0%Z) with (nth 0 b 0%Z mod 2 ^ Z.of_nat n)%Z.
  - apply Z.mod_pos_bound. apply Z.pow_pos_nonneg; lia.
  - apply Z.bits_inj'. intros j Hj. rewrite <- (Z2Nat.id j) by lia.
    destruct (Z_lt_le_dec (Z.of_nat (Z.to_nat j)) (Z.of_nat n)).
    + apply Z.mod_pow2_bits_low. lia.
    + rewrite Z.mod_pow2_bits_high by lia. rewrite B.
      destruct (Nat.ltb_spec (Z.to_nat j) n); [lia|auto].
Qed.

Lemma of_ullong_word n v : 2 <= n <= 64 -> (0 <= v < 2 ^ Z.of_nat n)%Z ->
  bm_clean n (bm_of_ullong n v) /\ bm_to_ullong (bm_of_ullong n v) = v.
Proof.
  intros Hn Hv. geom n. pose proof (word_bits_ge n HG). rewrite HGone in * by lia.
  assert (Hlt : (v < 2 ^ Z.of_nat (bm_word_bits n))%Z).
  { eapply Z.lt_le_trans; [apply Hv|]. apply Z.pow_le_mono_r; lia. }
  split.
  - split; [apply bm_of_ullong_wf; auto|]. rewrite HGone by lia. intros i Hi.
    rewrite bm_of_ullong_bit by lia. apply (small_bits v n); auto; lia.
  - unfold bm_to_ullong, bm_of_ullong, bm_zero. rewrite HGone by lia. cbn [repeat nth].
    unfold bm_to_word. destruct (Nat.eqb_spec n 1); [lia|]. apply Z.mod_small. lia.
Qed.

(* _S_to_bits: the word has exactly the bits of the elements *)
Lemma to_bits_word packs o l : is_mask o l ->
  let '(n, b) := obj_to_bits packs o in
  n = length l /\ 1 <= n <= 64 /\ bm_clean n b /\
  forall i, Z.testbit (bm_to_ullong b) (Z.of_nat i) = nth i l false.
Proof.
  destruct o as [b|n k|n b|s x]; cbn [is_mask obj_to_bits].
  - intros ->. split; [auto|]. split; [lia|]. split.
    + apply clean1. apply bm_of_ullong_wf. lia.
    + intros i. destruct i as [|i]; [destruct b; reflexivity|].
      destruct i; destruct b; cbn [nth b2z]; unfold bm_to_ullong, bm_of_ullong; cbn; auto;
      rewrite ?Z.bits_0; auto.
  - intros (Hn & Hl & Hk & He). split; [auto|]. split; [lia|].
    destruct (bm_sanitized_spec n false (bm_of_ullong n k) ltac:(lia) ltac:(apply bm_of_ullong_wf; lia)
      ltac:(discriminate)) as [Hc Hb].
    split; [exact Hc|]. intros i.
    destruct (clean_word n _ ltac:(lia) Hc) as [_ B]. rewrite B.
    destruct (Nat.ltb_spec i n) as [Hi|Hi]; cbn [andb].
    + rewrite Hb by auto. rewrite bm_of_ullong_bit; [apply He; auto|lia|lia|].
      destruct (word_bits_ge n ltac:(lia)); lia.
    + rewrite nth_overflow by lia. auto.
  - intros (Hn & Hc & Hl). assert (Hll : length l = n) by (rewrite <- Hl; apply bm_list_length).
    split; [auto|]. split; [auto|]. split; [auto|]. intros i.
    destruct (clean_word n b Hn Hc) as [_ B]. rewrite B.
    destruct (Nat.ltb_spec i n) as [Hi|Hi]; cbn [andb].
    + rewrite <- Hl, bm_list_nth by auto. symmetry. apply bm_get_bit; [lia|apply Hc|auto].
    + rewrite nth_overflow by lia. auto.
  - intros (Hs & Hst & Hh). pose proof Hh as (Hx & Hl & _). pose proof Hs as (Hsz & _ & Hn & _ & Hr & Hrl).
    rewrite (x86_to_bits_ok packs s x l) by auto.
    assert (sn s <= 64) by (destruct Hsz as [E|[E|[E|E]]]; rewrite E in *; lia).
    pose proof (of_lanes_lt l) as Hlt. rewrite Hl in Hlt.
    destruct (of_ullong_word (sn s) (of_lanes l) ltac:(lia) Hlt) as [Hc Hw].
    split; [auto|]. split; [lia|]. split; [auto|]. intros i. rewrite Hw. apply of_lanes_bit.
Qed.

Theorem to_fixed_all packs m o l : is_mask o l -> 1 <= m <= 64 ->
  bm_clean m (to_fixed packs m o) /\ bm_list m (to_fixed packs m o) = resized m l.
Proof.
  intros Ho Hm. pose proof (to_bits_word packs o l Ho) as H. unfold to_fixed.
  destruct (obj_to_bits packs o) as [n b]. destruct H as (Hnl & Hn & Hc & B).
  pose proof (bm_extract_wf n 0 m b ltac:(lia)) as Hwf.
  pose proof (bm_extract_flag_sound n true 0 m b ltac:(lia) ltac:(lia) (proj1 Hc) ltac:(auto) ltac:(lia) ltac:(lia)) as Hf.
  destruct (bm_sanitized_spec m (bm_extract_flag n true 0 m) (bm_extract n 0 m b) ltac:(lia) Hwf Hf) as [Hcl Hb].
  split; [exact Hcl|]. apply (nth_eq_ext _ _ false).
  - rewrite bm_list_length, resized_length. auto.
  - intros i Hi. rewrite bm_list_length in Hi. rewrite bm_list_nth, resized_nth by auto.
    rewrite bm_get_bit by (try apply Hcl; lia). rewrite Hb by auto. rewrite <- B.
    unfold bm_extract. destruct (Nat.eqb_spec m 1) as [->|Hm1].
    + assert (i = 0) by lia. subst i. rewrite bm_of_ullong_bit1, testbit_landpow by lia. reflexivity.
    + rewrite bm_of_ullong_bit; [|lia|auto|destruct (word_bits_ge m ltac:(lia)); lia].
      rewrite Z.shiftr_0_r. reflexivity.
Qed.

Theorem to_scalar_all o l : is_mask o l -> to_scalar o = nth 0 l false.
Proof.
  destruct o as [b|n k|n b|s x]; cbn [is_mask to_scalar].
  - intros ->. auto.
  - intros (Hn & Hl & Hk & He). rewrite k_get_bit. apply He. lia.
  - intros (Hn & Hc & <-). rewrite bm_list_nth by lia. auto.
  - intros (Hs & Hst & Hh). pose proof Hh as (Hx & Hl & He & _). pose proof Hs as (Hsz & _ & Hn & _).
    rewrite He by lia. destruct (nth 0 l false); [|reflexivity].
    pose proof (ones_pos s Hs) as Ho. unfold ones, lw in Ho.
    destruct (Z.eqb_spec (2 ^ (8 * Z.of_nat (sz s)) - 1) 0); [lia|auto].
Qed.

(* bits of the result; beyond the argument's elements only if it has no stray bits *)
Theorem to_kmask_all packs m o l : is_mask o l -> 2 <= m <= 64 ->
  forall i, i < m -> (i < length l \/ no_stray o) ->
  Z.testbit (to_kmask packs m o) (Z.of_nat i) = nth i l false.
Proof.
  intros Ho Hm i Hi Hc. assert (Hik : i < kw m) by (pose proof (kw_ge m Hm); lia).
  pose proof (to_bits_word packs o l Ho) as H.
  destruct o as [b|n k|n b|s x]; cbn [is_mask to_kmask no_stray obj_to_bits snd] in *.
  - subst l. rewrite kword_bit by auto. destruct i as [|i]; [destruct b; reflexivity|].
    cbn [nth]. destruct b, i; cbn [b2z nth]; rewrite ?Z.bits_0; auto.
  - rewrite kword_bit by auto. destruct Ho as (Hn & Hl & Hk & He).
    destruct (le_lt_dec n i) as [Hge|Hlt].
    + destruct Hc as [Hc|Hc]; [lia|]. rewrite (small_bits k n) by (auto; lia).
      rewrite nth_overflow by lia. auto.
    + apply He. auto.
  - rewrite kword_bit by auto. apply H.
  - rewrite kword_bit by auto. apply H.
Qed.

(* a vector mask *)
Theorem to_vec_all ft const t m o l : is_mask o l -> cfeat_ok ft -> vec_dest ft t m ->
  forall i b, i < m -> b < t ->
  (i < length l \/ (no_stray o /\ ~ upper_undefined const t m o)) ->
  nth (i * t + b) (to_vec ft const t m o) None = Some (bool_byte (nth i l false)).
Proof.
  intros Ho Hft Hdest i b Hi Hb Hc. pose proof Hdest as (Ht & Hm & Htm & _).
  destruct (sizes t m Ht Hm Htm) as (Hv & Hd & Hbc & Hbig & Hsmall).
  destruct (lanes_ge t m i b ltac:(lia) Hd Hb Hi) as [Hli Hp].
  pose proof (to_bits_word true o l Ho) as H.
  destruct o as [c|n k|n c|s x].
  - cbn [is_mask to_vec] in *. subst l. unfold bool_to_vec. destruct i as [|i].
    + rewrite app_nth1 by (rewrite repeat_length; lia). rewrite nth_repeat_lt by lia. reflexivity.
    + rewrite app_nth2 by (rewrite repeat_length; lia).
      rewrite nth_repeat_lt by (rewrite repeat_length; lia). destruct i; reflexivity.
  - cbn [to_vec obj_to_bits] in *. destruct H as (Hnl & Hn & Hcl & B).
    rewrite bits_all; auto.
    + rewrite B. auto.
    + apply (clean_word n); auto.
  - cbn [to_vec obj_to_bits] in *. destruct H as (Hnl & Hn & Hcl & B).
    rewrite bits_all; auto.
    + rewrite B. auto.
    + apply (clean_word n); auto.
  - cbn [to_vec]. cbn [is_mask] in Ho. destruct Ho as (Hs & Hst & Hh).
    destruct (vec_all ft const s x l t m Hs Hst Hh Ht Hm Htm i b Hi Hb) as [V1 V2].
    pose proof Hh as (_ & Hl & _).
    destruct (le_lt_dec (sn s) i) as [Hge|Hlt].
    + destruct Hc as [Hc|[Hc1 Hc2]]; [lia|]. cbn [no_stray] in Hc1.
      rewrite (nth_overflow l) by lia. apply V2; auto.
    + apply V1. auto.
Qed.

Theorem to_vec_shows ft const t m o l : is_mask o l -> cfeat_ok ft -> vec_dest ft t m ->
  (m <= length l \/ (no_stray o /\ ~ upper_undefined const t m o)) ->
  shows t (to_vec ft const t m o) (resized m l).
Proof.
  intros Ho Hft Hdest Hc i b Hi Hb. rewrite resized_length in Hi.
  rewrite (to_vec_all ft const t m o l); auto.
  - rewrite resized_nth by auto. reflexivity.
  - destruct Hc; [left; lia|right; auto].
Qed.

Lemma nth_firstn_case (l : list bool) k i : nth i (firstn k l) false = (i <? k) && nth i l false.
Proof.
  destruct (Nat.ltb_spec i k) as [H|H]; [apply nth_firstn_lt; auto|].
  apply nth_overflow. rewrite firstn_length. lia.
Qed.

(* the base versions of _S_to_bits and _S_to_maskvector *)
Lemma base_to_bits_ok s x l : holds s x l -> shape_ok s -> base_to_bits s x = of_lanes l.
Proof.
  intros Hh Hs. pose proof Hh as (Hx & Hl & He & Hr). pose proof Hs as (_ & _ & Hn & _).
  unfold base_to_bits.
  assert (G : forall k, k <= sn s -> fold_left (fun r i => Z.lor r (Z.shiftl (nth i x 0%Z / 2 ^ (lw s - 1)) (Z.of_nat i)))%Z
    (seq 0 k) 0%Z = of_lanes (firstn k l)).
  { induction k as [|k IH]; intros Hk; [reflexivity|].
    rewrite seq_S, fold_left_app, IH by lia. cbn [fold_left Nat.add].
    assert (V : (nth k x 0 / 2 ^ (lw s - 1))%Z = b2z (nth k l false)).
    { rewrite He by lia. pose proof (lw_cases s Hs) as L.
      destruct (nth k l false); cbn [b2z].
      - unfold lw in *. destruct L as [E|[E|[E|E]]]; rewrite E; reflexivity.
      - apply Z.div_0_l. apply Z.pow_nonzero; lia. }
    rewrite V. apply Z.bits_inj'. intros j Hj. rewrite <- (Z2Nat.id j) by lia.
    set (p := Z.to_nat j). rewrite Z.lor_spec, !of_lanes_bit.
    rewrite (nth_firstn_case l k), (nth_firstn_case l (S k)).
    rewrite Z.shiftl_spec by lia.
    destruct (lt_eq_lt_dec p k) as [[Hlt|Heq]|Hgt].
    - destruct (Nat.ltb_spec p k), (Nat.ltb_spec p (S k)); try lia.
      rewrite Z.testbit_neg_r by lia. apply orb_false_r.
    - destruct (Nat.ltb_spec p k), (Nat.ltb_spec p (S k)); try lia. rewrite Heq, Z.sub_diag.
      destruct (nth k l false); reflexivity.
    - destruct (Nat.ltb_spec p k), (Nat.ltb_spec p (S k)); try lia.
      rewrite testbit_b2z by lia. destruct (Z.eqb_spec (Z.of_nat p - Z.of_nat k) 0); [lia|auto]. }
  rewrite G by lia. rewrite firstn_all2 by lia. auto.
Qed.

Lemma base_bits_ok np t m b i c : 1 <= np -> (t = 1 \/ t = 2 \/ t = 4 \/ t = 8) -> 2 <= m -> t * m <= 32 ->
  i < m -> c < t ->
  nth (i * t + c) (base_bits_to_vec np t m b) None = Some (bool_byte ((i <? np) && bm_get np b i)).
Proof.
  intros Hnp Ht Hm Htm Hi Hc.
  destruct (sizes t m Ht Hm Htm) as (Hv & Hd & _).
  destruct (lanes_ge t m i c ltac:(lia) Hd Hc Hi) as [Hli Hp].
  unfold base_bits_to_vec. rewrite nth_spread by (auto; rewrite map_length, seq_length; auto).
  rewrite nth_map_seq by auto. reflexivity.
Qed.

(* a register whose bytes show l holds l *)
Lemma shows_holds s x l : shape_ok s -> st s = bit_ceil (sn s) -> length x = st s ->
  (forall i, i < st s -> (0 <= nth i x 0 < 2 ^ lw s)%Z) -> length l = sn s ->
  shows (sz s) (lane_bytes s x) l -> holds s x l.
Proof.
  intros Hs Hst Hx Hb Hl H. pose proof Hs as (Hsz & _ & Hn & _).
  split; [auto|]. split; [auto|]. split; [|auto].
  intros i Hi. pose proof (Hb i ltac:(lia)) as Hv.
  assert (B : forall b, b < sz s -> ((nth i x 0 / 2 ^ (8 * Z.of_nat b)) mod 2 ^ 8
              = if nth i l false then 255 else 0)%Z).
  { intros b Hbb. specialize (H i b ltac:(lia) Hbb). rewrite lane_bytes_nth in H by lia. congruence. }
  assert (E : (if nth i l false then ones s else 0)%Z
    = uns (lw s) (if nth i l false then -1 else 0)%Z).
  { unfold uns, ones, lw. destruct (nth i l false).
    - destruct Hsz as [E|[E|[E|E]]]; rewrite E; reflexivity.
    - symmetry. apply Z.mod_0_l. apply Z.pow_nonzero; lia. }
  unfold ones, lw in E; rewrite E; fold (lw s). apply Z.bits_inj'. intros j Hj. unfold uns.
  destruct (Z_lt_le_dec j (lw s)) as [Hlt|Hge].
  - rewrite Z.mod_pow2_bits_low by lia.
    unfold lw in Hlt.
    assert (Q : (Z.testbit ((nth i x 0 / 2 ^ (8 * Z.of_nat (Z.to_nat (j / 8)))) mod 2 ^ 8) (j mod 8) = Z.testbit (nth i x 0) j)%Z).
    { pose proof (Z.mod_pos_bound j 8 ltac:(lia)). pose proof (Z.div_pos j 8 Hj ltac:(lia)).
      rewrite Z.mod_pow2_bits_low by lia. rewrite Z.div_pow2_bits by lia. f_equal.
      rewrite Z2Nat.id by lia. pose proof (Z.div_mod j 8 ltac:(lia)). lia. }
    rewrite <- Q, B.
    + pose proof (Z.mod_pos_bound j 8 ltac:(lia)) as M.
      destruct (nth i l false); [|rewrite !Z.bits_0; auto].
      change (Z.testbit (-1) j) with (Z.testbit (- (1)) j). change 255%Z with (Z.ones 8). rewrite Z.ones_spec_low by lia. symmetry. apply (Z.bits_m1 j Hj).
    + apply Nat2Z.inj_lt. rewrite Z2Nat.id by (apply Z.div_pos; lia). apply Z.div_lt_upper_bound; lia.
  - rewrite Z.mod_pow2_bits_high by (unfold lw in *; lia). apply Z.bits_above_log2; [lia|].
    destruct (Z.eq_dec (nth i x 0%Z) 0) as [->|Hnz]; [cbn; unfold lw in *; lia|].
    apply Z.log2_lt_pow2; [lia|]. eapply Z.lt_le_trans; [apply Hv|]. apply Z.pow_le_mono_r; lia.
Qed.

Lemma bitset_word n k : (0 <= k < 2 ^ Z.of_nat n)%Z ->
  of_lanes (map (fun i => Z.testbit k (Z.of_nat i)) (seq 0 n)) = k.
Proof.
  intros Hk. apply Z.bits_inj'. intros j Hj. rewrite <- (Z2Nat.id j) by lia.
  rewrite of_lanes_bit. destruct (le_lt_dec n (Z.to_nat j)) as [H|H].
  - rewrite nth_overflow by (rewrite map_length, seq_length; auto).
    symmetry. apply (small_bits k n); auto.
  - rewrite nth_map_seq by auto. reflexivity.
Qed.

(* __from_bitset then __to_bitset, vector masks *)
Lemma vec_from_to ft const packs s x k : cfeat_ok ft -> vec_dest ft (sz s) (sn s) ->
  shape_ok s -> st s = bit_ceil (sn s) -> length x = st s ->
  (forall i, i < st s -> (0 <= nth i x 0 < 2 ^ lw s)%Z) -> (0 <= k < 2 ^ Z.of_nat (sn s))%Z ->
  (forall i b, i < sn s -> b < sz s -> nth (i * sz s + b) (lane_bytes s x) None
     = nth (i * sz s + b) (x86_bits_to_vec ft const (sn s) (sz s) (sn s) k) None) ->
  x86_to_bits packs s x = k.
Proof.
  intros Hft Hd Hs Hst Hx Hb Hk He.
  set (l := map (fun i => Z.testbit k (Z.of_nat i)) (seq 0 (sn s))).
  assert (Hl : length l = sn s) by (unfold l; rewrite map_length, seq_length; auto).
  pose proof Hs as (Hsz & _ & Hn & _ & Hr & Hrl).
  assert (sn s <= 64) by (destruct Hsz as [E|[E|[E|E]]]; rewrite E in *; lia).
  rewrite (x86_to_bits_ok packs s x l); [apply bitset_word; auto| |auto].
  apply shows_holds; auto. intros i b Hi Hbb. rewrite He by lia. rewrite bits_all; auto; try lia.
  unfold l. rewrite nth_map_seq by lia. reflexivity.
Qed.

(* __to_bitset then __from_bitset *)
Lemma vec_to_from ft const packs s x l : cfeat_ok ft -> vec_dest ft (sz s) (sn s) ->
  shape_ok s -> holds s x l ->
  shows (sz s) (x86_bits_to_vec ft const (sn s) (sz s) (sn s) (x86_to_bits packs s x)) l.
Proof.
  intros Hft Hd Hs Hh i b Hi Hb. pose proof Hh as (_ & Hl & _).
  pose proof Hs as (Hsz & _ & Hn & _ & Hr & Hrl).
  assert (sn s <= 64) by (destruct Hsz as [E|[E|[E|E]]]; rewrite E in *; lia).
  rewrite (x86_to_bits_ok packs s x l) by auto. pose proof (of_lanes_lt l) as Hlt. rewrite Hl in Hlt.
  rewrite bits_all; auto; try lia. rewrite of_lanes_bit. reflexivity.
Qed.

Lemma vec_to_bitset packs s x l : shape_ok s -> holds s x l ->
  (0 <= x86_to_bits packs s x < 2 ^ Z.of_nat (sn s))%Z /\
  forall i, Z.testbit (x86_to_bits packs s x) (Z.of_nat i) = nth i l false.
Proof.
  intros Hs Hh. pose proof Hh as (_ & Hl & _). rewrite (x86_to_bits_ok packs s x l) by auto.
  pose proof (of_lanes_lt l) as Hlt. rewrite Hl in Hlt. split; [lia|]. intros i. apply of_lanes_bit.
Qed.

Lemma base_to_bitset s x l : shape_ok s -> holds s x l ->
  (0 <= base_to_bits s x < 2 ^ Z.of_nat (sn s))%Z /\
  (forall i, Z.testbit (base_to_bits s x) (Z.of_nat i) = nth i l false).
Proof.
  intros Hs Hh. pose proof Hh as (_ & Hl & _). rewrite (base_to_bits_ok s x l) by auto.
  pose proof (of_lanes_lt l) as Hlt. rewrite Hl in Hlt. split; [lia|]. intros i. apply of_lanes_bit.
Qed.

(* AVX-512 masks *)
Lemma avx512_bitset packs n : 2 <= n <= 64 ->
  (forall k l, is_mask (MBits n k) l -> bm_list n (snd (obj_to_bits packs (MBits n k))) = l) /\
  (forall b, bm_clean n b -> snd (obj_to_bits packs (MBits n (to_kmask packs n (MFixed n b)))) = b).
Proof.
  intros Hn.
  assert (F : forall k l, is_mask (MBits n k) l -> bm_list n (snd (obj_to_bits packs (MBits n k))) = l).
  { intros k l H. pose proof (to_bits_word packs (MBits n k) l H) as W. cbn [obj_to_bits snd] in *.
    destruct W as (Hl & _ & Hc & B). apply (nth_eq_ext _ _ false); [rewrite bm_list_length; auto|].
    intros i Hi. rewrite bm_list_length in Hi. rewrite bm_list_nth by auto.
    rewrite bm_get_bit by (try apply Hc; lia). rewrite <- B.
    destruct (clean_word n _ ltac:(lia) Hc) as [_ W]. rewrite W.
    destruct (Nat.ltb_spec i n); [auto|lia]. }
  split; [exact F|]. intros b Hc. destruct (clean_word n b ltac:(lia) Hc) as [Hw B].
  apply (bm_list_ext n); [lia| |auto|].
  - cbn [obj_to_bits snd]. apply bm_sanitized_spec; [lia|apply bm_of_ullong_wf; lia|discriminate].
  - apply F. cbn [is_mask to_kmask]. split; [lia|]. split; [apply bm_list_length|].
    split; [apply kword_bound|]. intros i Hi. pose proof (kw_ge n Hn).
    rewrite kword_bit by lia. rewrite B, bm_list_nth by auto.
    rewrite bm_get_bit by (try apply Hc; lia). destruct (Nat.ltb_spec i n); [auto|lia].
Qed.
