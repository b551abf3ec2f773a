(* Loading masks from bool*, masked loads and stores of masks: proofs. *)
From Coq Require Import List ZArith Bool Arith Lia.
From Verif Require Import Prelude MaskSpec BitMask BitMaskProofs KMask KMaskSpec KMaskProofs X86Lanes X86Mask X86MaskSpec X86MaskProofs
  BoolStore BoolStoreProofs MaskConv MaskConvSpec MaskConvProofs MaskConvBits MaskConvTop Abi Fixed FixedSpec FixedProofs FixedTop Mem MemSpec MemProofs BoolLoad BoolLoadSpec.
Import ListNotations.
Local Open Scope nat_scope.

Lemma array_read m l : array m l -> mread_range m 0 (length l) = Some l.
Proof.
  intros H. destruct (mread_range_spec m 0 (length l)) as (r & E & L & N).
  { intros j Hj. unfold below in Hj. apply Nat.ltb_lt in Hj. unfold mshift. cbn. rewrite H by auto. discriminate. }
  rewrite E. f_equal. apply (nth_eq_ext _ _ false); [auto|]. intros i Hi.
  specialize (N i ltac:(lia)). cbn in N. rewrite H in N by lia.
  apply nth_error_nth with (d := false) in N. auto.
Qed.
Lemma array_bytes m l size : array m l ->
  load_bytes size (length l) m = Some (map b2z l ++ repeat 0%Z (size - length l)).
Proof. intros H. unfold load_bytes. rewrite (array_read m l H). reflexivity. Qed.

Lemma cmpgt8 l k : cmpgt_epi8 (map b2z l ++ repeat 0%Z k) = map bool_byte l ++ repeat 0%Z k.
Proof.
  unfold cmpgt_epi8. rewrite map_app, map_map. f_equal.
  - apply map_ext. intros []; reflexivity.
  - induction k; cbn [repeat map]; f_equal; auto.
Qed.
Lemma cmp16 b : bool_byte (0 <? sgn 16 (b2z b + 2 ^ 8 * b2z b))%Z = bool_byte b.
Proof. destruct b; reflexivity. Qed.

(* vectors by their first bytes *)
Lemma shows_spread t v l rest : v = spread t l ++ rest -> shows t v l.
Proof.
  intros -> i b Hi Hb. assert (Hlt : i * t + b < length (spread t l)).
  { clear - Hi Hb. revert i Hi. induction l as [|x l IH]; intros i Hi; cbn in *; [lia|].
    unfold spread in *. cbn [flat_map]. rewrite app_length, repeat_length.
    destruct i; [nia|]. specialize (IH i ltac:(lia)). nia. }
  rewrite app_nth1 by auto. rewrite nth_spread by auto. reflexivity.
Qed.

Lemma bw_load ft const t n m l : cfeat_ok ft -> vec_dest ft t n -> length l = n -> array m l ->
  exists v, load_avx512bw ft const t n m = Some v /\ shows t v l.
Proof.
  intros Hft Hd Hl Ha. unfold load_avx512bw.
  set (size := if (n <=? 16) && c_avx512vl ft then 16 else if (n <=? 32) && c_avx512vl ft then 32 else 64). clearbody size.
  subst n. rewrite array_bytes by auto. cbn [option_map]. eexists. split; [reflexivity|].
  set (k := of_lanes _). assert (Hn : 2 <= length l <= 32).
  { destruct Hd as (Ht & Hm & Htm & _). destruct Ht as [->|[->|[->| ->]]]; lia. }
  assert (Hk : k = of_lanes l).
  { subst k. rewrite map_app, map_map. apply Z.bits_inj'. intros j Hj. rewrite <- (Z2Nat.id j) by lia.
    rewrite !of_lanes_bit. destruct (le_lt_dec (length l) (Z.to_nat j)) as [H|H].
    - rewrite app_nth2 by (rewrite map_length; auto). rewrite (nth_overflow l) by auto.
      clear. generalize (Z.to_nat j - length (map (fun x => negb (Z.land (b2z x) (b2z x) =? 0)%Z) l)).
      induction (size - length l) as [|c IH]; intros [|q]; cbn [repeat map nth]; auto.
    - rewrite app_nth1 by (rewrite map_length; auto).
      rewrite (nth_indep _ _ (negb (Z.land (b2z false) (b2z false) =? 0)%Z)) by (rewrite map_length; auto).
      rewrite (map_nth (fun x => negb (Z.land (b2z x) (b2z x) =? 0)%Z)). destruct (nth _ l false); reflexivity. }
  intros i b Hi Hb. rewrite Hk.
  assert (Hm : is_mask (MBits (length l) (of_lanes l)) l).
  { cbn [is_mask]. pose proof (of_lanes_lt l) as H. split; [lia|]. split; [auto|]. split.
    - split; [apply H|]. eapply Z.lt_le_trans; [apply H|]. apply Z.pow_le_mono_r; [lia|]. pose proof (kw_ge (length l) ltac:(unfold size_ok; lia)). lia.
    - intros. apply of_lanes_bit. }
  pose proof (to_vec_shows ft const t (length l) _ l Hm Hft Hd (or_introl (le_n _))) as S.
  rewrite (resized_eq _ _ eq_refl) in S. cbn [to_vec] in S. apply S; auto.
Qed.

Lemma base_load t n m l : (t = 1 \/ t = 2 \/ t = 4 \/ t = 8) -> length l = n -> array m l ->
  exists v, base_mask_load t n m = Some v /\ shows t v l.
Proof.
  intros Ht <- Ha. unfold base_mask_load. destruct (Nat.eqb_spec t 1) as [->|Hne].
  - rewrite array_bytes by auto. cbn [option_map]. eexists. split; [reflexivity|].
    rewrite cmpgt8. unfold defined. rewrite map_app, map_map.
    eapply shows_spread with (rest := _). f_equal.
  - rewrite (array_read m l Ha). cbn [option_map]. eexists. split; [reflexivity|].
    eapply shows_spread. reflexivity.
Qed.


Theorem x86_load ft const t n m l : cfeat_ok ft -> vec_dest ft t n -> length l = n -> array m l ->
  exists v, x86_mask_load ft const t n m = Some v /\ shows t v l.
Proof.
  intros Hft Hd Hl Ha. unfold x86_mask_load.
  destruct (c_avx512bw ft); [apply bw_load; auto|].
  pose proof Hd as (Ht & Hm & Htm & Havx & _).
  destruct Ht as [->|[->|[->| ->]]]; cbn [Nat.eqb andb].
  - apply base_load; auto.
  - destruct (Nat.leb_spec n 16) as [_|]; [|lia]. subst n. rewrite array_bytes by auto. cbn [option_map].
    rewrite cmpgt8. eexists. split; [reflexivity|].
    clear - Hm Htm. destruct (Nat.leb_spec (length l) 8) as [H8|H8].
    + do 9 (destruct l as [|? l]; [try (cbn in Hm; lia); eapply shows_spread; cbn; reflexivity|]). cbn in H8. lia.
    + do 17 (destruct l as [|? l]; [try (cbn in H8; lia); eapply shows_spread; cbn; reflexivity|]). cbn in Htm. lia.
  - destruct (Nat.leb_spec n 4) as [H4|H4].
    + subst n. rewrite array_bytes by auto. cbn [option_map]. eexists. split; [reflexivity|].
      clear - Hm H4. do 5 (destruct l as [|? l]; [try (cbn in Hm; lia);
        cbn [length map repeat app Nat.sub dup_lanes flat_map seq Nat.div Nat.divmod fst firstn skipn Nat.add Nat.mul cmpgt_epi16];
        rewrite !cmp16; eapply shows_spread; cbn; reflexivity|]). cbn in H4. lia.
    + destruct (Nat.leb_spec n 8) as [H8|]; [|lia].
      subst n. rewrite array_bytes by auto. cbn [option_map]. eexists. split; [reflexivity|].
      clear - H4 H8. do 9 (destruct l as [|? l]; [try (cbn in H4; lia);
        cbn [length map repeat app Nat.sub dup_lanes flat_map seq Nat.div Nat.divmod fst firstn skipn Nat.add Nat.mul cmpgt_epi16];
        rewrite !cmp16; eapply shows_spread; cbn; reflexivity|]). cbn in H8. lia.
  - destruct (Nat.eqb_spec n 2) as [->|H2].
    + pose proof (array_read m l Ha) as R. rewrite Hl in R. rewrite R. cbn [option_map]. eexists. split; [reflexivity|].
      destruct l as [|a [|b [|]]]; try discriminate Hl.
      apply shows_spread with (rest := []). destruct a, b; reflexivity.
    + rewrite (Havx ltac:(lia)). destruct (Nat.leb_spec n 4) as [H4|]; [|lia]. cbn [andb].
      subst n. rewrite array_bytes by auto. cbn [option_map]. eexists. split; [reflexivity|].
      destruct l as [|a [|b [|c [|d [|]]]]]; cbn in Hm, H4, H2; try lia;
        [apply shows_spread with (rest := repeat (Some 0%Z) 8); destruct a, b, c; vm_compute; reflexivity
        |apply shows_spread with (rest := []); destruct a, b, c, d; vm_compute; reflexivity].
Qed.

Lemma fixed_load I n m l : fixed_size_type I (TInt 1) n -> length l = n -> array m l ->
  exists b, fixed_mask_load I n m = Some b /\ bm_clean n b /\ bm_list n b = l.
Proof.
  intros Hf Hl Ha. pose proof Hf as (HI & Ht & Hn).
  destruct (FixedStorage.storage_shape_facts I (TInt 1) n HI Ht Hn) as (s & E & _ & _).
  unfold fixed_mask_load. rewrite E.
  destruct (c11_fixed_load I (TInt 1) (TInt 1) n true (fun v : Z => v) 0%Z 0%Z s (fun i => option_map b2z (m i)))
    as (x & Ex & Fx & Gx); auto.
  { intros j Hj. unfold below in Hj. apply Nat.ltb_lt in Hj. rewrite Ha by lia. discriminate. }
  rewrite Ex. cbn [option_map]. eexists. split; [reflexivity|].
  destruct (c07_test I (TInt 1) n (fun v _ => negb (v =? 0)%Z) ne_zero x [] Hf) as [Hc Hb]; auto.
  { intros k reg regs Hk _. unfold ne_zero. rewrite map_length. split; [auto|]. intros i d Hi.
    rewrite (nth_indep _ _ (negb (d =? 0)%Z)) by (rewrite map_length; lia).
    exact (map_nth (fun v => negb (v =? 0)%Z) reg d i). }
  split; [auto|]. apply (nth_eq_ext _ _ false).
  - rewrite bm_list_length. auto.
  - intros i Hi. rewrite bm_list_length in Hi. rewrite bm_list_nth by auto.
    rewrite (Hb i (b2z (nth i l false)) []); [destruct (nth i l false); reflexivity|auto| |reflexivity].
    rewrite Gx by auto. rewrite Ha by lia. reflexivity.
Qed.

(* the set bits of the word of a mask are its true elements *)
Lemma word_iteration k : length k <= 64 -> exists is, bit_iteration 64 (of_lanes k) = Some is /\
  NoDup is /\ forall i, In i is <-> nth i k false = true.
Proof.
  intros Hk. rewrite (bit_iteration_spec 64 (length k)); [|apply of_lanes_lt|auto].
  eexists. split; [reflexivity|]. split; [apply NoDup_filter, seq_NoDup|].
  intros i. unfold set_bits. rewrite filter_In, in_seq, of_lanes_bit. split; [tauto|].
  intros H. split; [|auto]. destruct (le_lt_dec (length k) i); [rewrite nth_overflow in H by auto; discriminate|lia].
Qed.
Lemma in_dom_sel is (k : list bool) : (forall i, In i is <-> nth i k false = true) ->
  forall i, in_dom i is = nth i k false.
Proof.
  intros H i. destruct (in_dom i is) eqn:E.
  - apply in_dom_iff, H in E. auto.
  - destruct (nth i k false) eqn:Ek; [|auto]. apply H, in_dom_iff in Ek. congruence.
Qed.

Lemma neg_bool_val s b : (exists q, lw s = 8 * Z.of_nat (S q))%Z ->
  neg_bool s b = if b then (2 ^ lw s - 1)%Z else 0%Z.
Proof.
  intros [q Hq]. unfold neg_bool, uns. assert (0 < lw s)%Z by lia.
  assert (2 <= 2 ^ lw s)%Z by (change 2%Z with (2 ^ 1)%Z at 1; apply Z.pow_le_mono_r; lia).
  destruct b; cbn [b2z]; [|apply Z.mod_0_l; lia].
  symmetry. apply Z.mod_unique with (-1)%Z; lia.
Qed.
Lemma sub_bool_val s b : uns (lw s) (0 - sgn 8 (b2z b)) = neg_bool s b.
Proof. unfold neg_bool. destruct b; reflexivity. Qed.

Lemma shape_lw s : shape_ok s -> (exists q, lw s = 8 * Z.of_nat (S q))%Z.
Proof. intros (Hz & _). unfold lw. exists (sz s - 1). lia. Qed.
Lemma shape_n s : shape_ok s -> 2 <= sn s <= 32.
Proof. intros (Hz & _ & Hn & Hs & Hr & Hrl). destruct Hz as [E|[E|[E|E]]]; rewrite E in *; lia. Qed.

(* what a lane-wise merge holds *)
Lemma merged_holds s merge l k m r : shape_ok s -> holds s merge l -> length k = sn s ->
  readable m k -> length r = length merge ->
  (forall i, i < length merge -> nth_error r i = if nth i k false then option_map (neg_bool s) (m i) else nth_error merge i) ->
  exists lr, merged m k l lr /\ holds s r lr.
Proof.
  intros Hs (Hx & Hl & He & Hb) Hk Hm Hr N.
  exists (map (fun i => if nth i k false then match m i with Some b => b | None => false end else nth i l false) (seq 0 (sn s))).
  pose proof Hs as (Hsz & _ & Hn & _). split.
  - split; [rewrite map_length, seq_length; auto|]. intros i Hi. rewrite nth_map_seq by lia. cbn [Nat.add].
    destruct (nth i k false) eqn:Ek; [|auto]. specialize (Hm i Ek). destruct (m i); [auto|congruence].
  - assert (V : forall i, i < st s -> nth i r 0%Z = if nth i k false
        then match m i with Some b => if b then (2 ^ lw s - 1)%Z else 0%Z | None => 0%Z end else nth i merge 0%Z).
    { intros i Hi. specialize (N i ltac:(lia)). destruct (nth i k false) eqn:Ek.
      - specialize (Hm i Ek). destruct (m i) as [b|]; [|congruence]. cbn in N.
        rewrite neg_bool_val in N by (apply shape_lw; auto). apply nth_error_nth with (d := 0%Z) in N. auto.
      - destruct (nth_error merge i) eqn:E; [|apply nth_error_None in E; lia].
        apply nth_error_nth with (d := 0%Z) in N. apply nth_error_nth with (d := 0%Z) in E. congruence. }
    unfold holds. split; [congruence|]. split; [rewrite map_length, seq_length; auto|]. split.
    + intros i Hi. rewrite V by lia. rewrite nth_map_seq by lia. cbn [Nat.add].
      destruct (nth i k false) eqn:Ek; [|apply He; auto]. specialize (Hm i Ek). destruct (m i); [reflexivity|congruence].
    + intros i Hi. rewrite V by lia. pose proof (Hb i Hi) as B. fold (lw s) in *.
      assert (0 < 2 ^ lw s)%Z by (apply Z.pow_pos_nonneg; unfold lw; lia).
      destruct (nth i k false); [destruct (m i) as [[]|]; lia|auto].
Qed.

Lemma base_masked_load s merge l k m : shape_ok s -> holds s merge l -> length k = sn s -> readable m k ->
  exists r lr, base_mask_masked_load s (of_lanes k) merge m = Some r /\ merged m k l lr /\ holds s r lr /\
    (forall i, sn s <= i -> nth i r 0%Z = nth i merge 0%Z).
Proof.
  intros Hs Hh Hk Hm. pose proof (shape_n s Hs). pose proof Hs as (_ & _ & Hn & _). pose proof Hh as (Hx & _).
  destruct (word_iteration k) as (is & Ei & _ & Hi); [lia|]. unfold base_mask_masked_load. rewrite Ei.
  pose proof (in_dom_sel is k Hi) as D.
  destruct (load_at_spec (neg_bool s) is merge m) as (r & Er & L & N).
  { intros i Hin. apply Hi in Hin. split; [|auto].
    destruct (le_lt_dec (length k) i); [rewrite nth_overflow in Hin by auto; discriminate|lia]. }
  destruct (merged_holds s merge l k m r) as (lr & M & Hr); auto.
  { intros i _. rewrite N, D. reflexivity. }
  exists r, lr. split; [auto|]. split; [auto|]. split; [auto|].
  intros i Hge. specialize (N i). rewrite D, nth_overflow in N by lia.
  destruct (nth_error merge i) eqn:E.
  - apply nth_error_nth with (d := 0%Z) in N, E. congruence.
  - apply nth_error_None in N, E. rewrite !nth_overflow by auto. reflexivity.
Qed.

Theorem x86_masked_load bwvl packs s mask k merge l m : shape_ok s -> holds s mask k -> holds s merge l -> readable m k ->
  exists r lr, x86_mask_masked_load bwvl packs s mask merge m = Some r /\ merged m k l lr /\ holds s r lr /\
    (forall i, sn s <= i -> nth i r 0%Z = nth i merge 0%Z).
Proof.
  intros Hs Hmk Hh Hm. pose proof Hmk as (_ & Hk & _). unfold x86_mask_masked_load. cbv zeta.
  rewrite (x86_to_bits_ok packs s mask k) by auto.
  destruct (bwvl && _) eqn:Eb; [|apply base_masked_load; auto].
  pose proof Hs as (Hsz & _ & Hn & Hst & Hr & Hrl). pose proof Hh as (Hx & _).
  assert (Hfull : st s = sn s).
  { apply andb_prop in Eb as [_ Eb]. apply orb_prop in Eb. rewrite !Nat.eqb_eq in Eb.
    destruct Hsz as [E|[E|[E|E]]]; rewrite E in *; lia. }
  set (kb := map _ _). assert (Hkb : forall i, nth i kb false = nth i k false).
  { intros i. subst kb. destruct (le_lt_dec (sn s) i).
    - rewrite !nth_overflow by (rewrite ?map_length, ?seq_length; lia). auto.
    - rewrite nth_map_seq by auto. cbn [Nat.add]. apply of_lanes_bit. }
  destruct (load_lanes_spec (fun b => uns (lw s) (0 - sgn 8 (b2z b))) merge kb 0 m) as (r & Er & L & N).
  { intros i _ Hi. rewrite Hkb in Hi. apply Hm. auto. }
  destruct (merged_holds s merge l k m r) as (lr & M & Hrr); auto.
  { intros i Hi. rewrite N by auto. rewrite Hkb. cbn [Nat.add]. destruct (nth i k false); [|auto].
    destruct (m i); cbn [option_map]; [rewrite sub_bool_val|]; auto. }
  exists r, lr. split; [auto|]. split; [auto|]. split; [auto|].
  intros i Hi. rewrite !nth_overflow by lia. reflexivity.
Qed.

Lemma writes_selected (m : mem bool) is (k l : list bool) ws : NoDup is -> (forall i, In i is <-> nth i k false = true) ->
  readable m k -> ws = map (fun i => (i, nth i l false)) is ->
  exists m', mwrites m ws = Some m' /\ stored m k l m'.
Proof.
  intros _ Hi Hm ->.
  destruct (mwrites_spec (map (fun i => (i, nth i l false)) is) m (fun i => Some (nth i l false))) as (m' & E & W).
  { intros i v Hin. apply in_map_iff in Hin as (j & Ej & Hj). injection Ej as -> <-. split; [|auto]. apply Hm, Hi; auto. }
  exists m'. split; [auto|]. intros i. rewrite (W i). rewrite map_map, map_id. rewrite (in_dom_sel is k Hi). reflexivity.
Qed.

Theorem vector_masked_store packs s mask k v l m : shape_ok s -> holds s mask k -> holds s v l -> readable m k ->
  exists m', mask_masked_store (x86_to_bits packs s mask) v m = Some m' /\ stored m k l m'.
Proof.
  intros Hs Hmk (Hx & Hl & He & _) Hm. pose proof Hmk as (_ & Hk & _). rewrite (x86_to_bits_ok packs s mask k) by auto.
  pose proof (shape_n s Hs). destruct (word_iteration k) as (is & Ei & ND & Hi); [lia|].
  unfold mask_masked_store. rewrite Ei. pose proof Hs as (Hsz & _ & Hn & _).
  assert (E : omapm (fun i => option_map (fun p => negb (p =? 0)%Z) (nth_error v i)) is = Some (map (fun i => nth i l false) is)).
  { assert (Hin : forall i, In i is -> i < sn s).
    { intros i Hin. apply Hi in Hin. destruct (le_lt_dec (length k) i); [rewrite nth_overflow in Hin by auto; discriminate|lia]. }
    clear Ei ND Hi. induction is as [|i is IH]; [reflexivity|]. cbn [omapm map].
    assert (i < sn s) by (apply Hin; left; auto).
    rewrite (nth_error_nth' v 0%Z) by lia. cbn [option_map]. rewrite He by auto. rewrite IH by (intros; apply Hin; right; auto).
    replace (negb _) with (nth i l false); [reflexivity|]. destruct (nth i l false); [|reflexivity].
    assert (1 < 2 ^ (8 * Z.of_nat (sz s)))%Z by (apply Z.pow_gt_1; lia). symmetry. apply negb_true_iff, Z.eqb_neq. lia. }
  rewrite E. apply (writes_selected m is k l); auto.
  clear. induction is; cbn; f_equal; auto.
Qed.

Lemma bm_word_iteration n b : 1 <= n <= 64 -> bm_clean n b -> exists is, bit_iteration 64 (bm_to_ullong b) = Some is /\
  NoDup is /\ forall i, In i is <-> nth i (bm_list n b) false = true.
Proof.
  intros Hn Hb. destruct (bm_iteration n b 64) as [E _]; [lia|lia|auto|lia|]. exists (true_indices (bm_list n b)).
  split; [auto|]. unfold true_indices. split; [apply NoDup_filter, seq_NoDup|].
  intros i. rewrite filter_In, in_seq. split; [tauto|]. intros H. split; [|auto].
  destruct (le_lt_dec (length (bm_list n b)) i); [rewrite nth_overflow in H by auto; discriminate|lia].
Qed.

Lemma set_from_spec n is m : 1 <= n -> forall b, bm_clean n b -> (forall i, In i is -> i < n /\ m i <> None) ->
  exists r, set_from n is b m = Some r /\ bm_clean n r /\
    forall i, i < n -> Some (nth i (bm_list n r) false) = if in_dom i is then m i else Some (nth i (bm_list n b) false).
Proof.
  intros Hn. induction is as [|j is IH]; intros b Hb H.
  - exists b. auto.
  - cbn [set_from]. destruct (H j (or_introl eq_refl)) as [Hj Hmj]. destruct (m j) as [x|] eqn:Ej; [|congruence].
    destruct (IH (bm_set n b j x)) as (r & E & C & N).
    { apply bm_set_clean; auto. }
    { intros i Hi. apply H. right; auto. }
    exists r. split; [auto|]. split; [auto|]. intros i Hi. rewrite N by auto.
    cbn [in_dom existsb]. change (existsb (Nat.eqb i) is) with (in_dom i is).
    destruct (in_dom i is); [rewrite orb_true_r; auto|]. rewrite orb_false_r.
    rewrite bm_set_list by (auto; apply Hb). destruct (Nat.eqb_spec i j) as [->|Hne].
    + rewrite upd_nth_same by (rewrite bm_list_length; auto). auto.
    + rewrite upd_nth_other by auto. auto.
Qed.

Theorem fixed_masked_load n merge k m : 1 <= n <= 64 -> bm_clean n merge -> bm_clean n k -> readable m (bm_list n k) ->
  exists r, fixed_mask_masked_load n merge k m = Some r /\ bm_clean n r /\
    merged m (bm_list n k) (bm_list n merge) (bm_list n r).
Proof.
  intros Hn Hg Hk Hm. destruct (bm_word_iteration n k Hn Hk) as (is & Ei & _ & Hi).
  unfold fixed_mask_masked_load. rewrite Ei.
  destruct (set_from_spec n is m ltac:(lia) merge Hg) as (r & E & C & N).
  { intros i Hin. apply Hi in Hin. split; [|auto].
    destruct (le_lt_dec (length (bm_list n k)) i) as [H|H]; [rewrite nth_overflow in Hin by auto; discriminate|].
    rewrite bm_list_length in H. auto. }
  exists r. split; [auto|]. split; [auto|]. split; [rewrite !bm_list_length; auto|].
  intros i Hi'. rewrite bm_list_length in Hi'. rewrite N by auto. rewrite (in_dom_sel is _ Hi). reflexivity.
Qed.

Theorem fixed_masked_store n v k m : 1 <= n <= 64 -> bm_clean n k -> readable m (bm_list n k) ->
  exists m', fixed_mask_masked_store n v k m = Some m' /\ stored m (bm_list n k) (bm_list n v) m'.
Proof.
  intros Hn Hk Hm. destruct (bm_word_iteration n k Hn Hk) as (is & Ei & ND & Hi).
  unfold fixed_mask_masked_store. rewrite Ei. apply (writes_selected m is); auto.
  apply map_ext_in. intros i Hin. apply Hi in Hin. rewrite bm_list_nth; [reflexivity|].
  destruct (le_lt_dec (length (bm_list n k)) i) as [H|H]; [rewrite nth_overflow in Hin by auto; discriminate|].
  rewrite bm_list_length in H. auto.
Qed.

Lemma scalar_masked_ok merge k m : readable m [k] ->
  exists r, scalar_mask_masked_load merge k m = Some r /\ merged m [k] [merge] [r].
Proof.
  intros H. destruct k; cbn [scalar_mask_masked_load].
  - specialize (H 0 eq_refl). unfold scalar_mask_masked_load. destruct (m 0) as [b|] eqn:E; [|congruence].
    exists b. split; [auto|]. split; [auto|]. intros i Hi. cbn in Hi. assert (i = 0) by lia. subst. cbn. auto.
  - exists merge. split; [auto|]. split; [auto|]. intros i Hi. cbn in Hi. assert (i = 0) by lia. subst. cbn. auto.
Qed.
Lemma scalar_store_ok v k m : readable m [k] ->
  exists m', scalar_mask_masked_store v k m = Some m' /\ stored m [k] [v] m'.
Proof.
  intros H. unfold scalar_mask_masked_store. destruct k.
  - unfold mwrite. specialize (H 0 eq_refl). destruct (m 0) eqn:E; [|congruence]. eexists. split; [reflexivity|].
    intros i. cbn beta. destruct i as [|[|i]]; reflexivity.
  - exists m. split; [auto|]. intros [|[|i]]; reflexivity.
Qed.

Theorem generic_load t n m l : (t = 1 \/ t = 2 \/ t = 4 \/ t = 8) -> length l = n -> array m l ->
  exists v, base_mask_load t n m = Some v /\ shows t v l.
Proof. exact (base_load t n m l). Qed.

Theorem generic_masked_load s mask k merge l m : shape_ok s -> holds s mask k -> holds s merge l -> readable m k ->
  exists r lr, base_mask_masked_load s (base_to_bits s mask) merge m = Some r /\ merged m k l lr /\ holds s r lr /\
    (forall i, sn s <= i -> nth i r 0%Z = nth i merge 0%Z).
Proof.
  intros Hs Hm Hh Hr. rewrite (base_to_bits_ok s mask k) by auto. apply base_masked_load; auto. apply Hm.
Qed.
Theorem generic_masked_store s mask k v l m : shape_ok s -> holds s mask k -> holds s v l -> readable m k ->
  exists m', mask_masked_store (base_to_bits s mask) v m = Some m' /\ stored m k l m'.
Proof.
  intros Hs Hm Hh Hr. rewrite (base_to_bits_ok s mask k) by auto. rewrite <- (x86_to_bits_ok false s mask k) by auto.
  apply vector_masked_store; auto.
Qed.
