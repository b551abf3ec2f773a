From Coq Require Import List ZArith Bool Arith Lia Znumtheory.
From Verif Require Import Prelude BitMask Abi AbiSpec AbiProofs Align.
Import ListNotations.
Local Open Scope Z_scope.
Local Arguments Z.land : simpl never.
Local Arguments Z.lxor : simpl never.
Local Arguments Z.mul : simpl never.
Local Arguments Z.pow : simpl never.

Definition lowbit (a : Z) : Z := Z.lxor (Z.land (a - 1) a) a.

Lemma testbit_dbl_plus b q k : 0 <= k ->
  Z.testbit (2 * q + Z.b2z b) k = if Z.eqb k 0 then b else Z.testbit q (k - 1).
Proof.
  intros Hk. destruct (Z.eqb_spec k 0) as [->|H].
  - rewrite Z.add_comm. apply Z.add_b2z_double_bit0.
  - replace k with (Z.succ (k - 1)) at 1 by lia.
    apply Z.testbit_succ_r. lia.
Qed.

Lemma lowbit_odd q : 0 <= q -> lowbit (2 * q + 1) = 1.
Proof.
  intros Hq. unfold lowbit. apply Z.bits_inj'. intros k Hk.
  rewrite Z.lxor_spec, Z.land_spec.
  replace (2 * q + 1 - 1) with (2 * q + Z.b2z false) by (simpl; lia).
  change 1 with (Z.b2z true).
  rewrite !testbit_dbl_plus by lia.
  replace (Z.b2z true) with (2 * 0 + Z.b2z true) by reflexivity.
  rewrite testbit_dbl_plus by lia.
  destruct (Z.eqb k 0); [reflexivity|]. rewrite Z.bits_0.
  destruct (Z.testbit q (k - 1)); reflexivity.
Qed.

Lemma lowbit_even q : 0 < q -> lowbit (2 * q) = 2 * lowbit q.
Proof.
  intros Hq. unfold lowbit. apply Z.bits_inj'. intros k Hk.
  rewrite Z.lxor_spec, Z.land_spec.
  replace (2 * q - 1) with (2 * (q - 1) + Z.b2z true) by (simpl; lia).
  replace (2 * q) with (2 * q + Z.b2z false) by (simpl; lia).
  match goal with |- _ = Z.testbit (2 * ?x) k =>
    replace (2 * x) with (2 * x + Z.b2z false) by (simpl; lia) end.
  rewrite !testbit_dbl_plus by lia.
  destruct (Z.eqb k 0); [reflexivity|].
  rewrite Z.lxor_spec, Z.land_spec. reflexivity.
Qed.

Lemma lowbit_spec p : exists k, 0 <= k /\ lowbit (Zpos p) = 2 ^ k /\ (2 ^ k | Zpos p).
Proof.
  induction p as [p IH|p IH|].
  - exists 0. split; [lia|]. rewrite Pos2Z.inj_xI, lowbit_odd by lia.
    split; [reflexivity|]. apply Z.divide_1_l.
  - destruct IH as [k [Hk [E D]]]. exists (k + 1). split; [lia|].
    rewrite Pos2Z.inj_xO, lowbit_even, E by lia.
    rewrite Z.pow_add_r, Z.mul_comm by lia. split; [reflexivity|].
    change (2 ^ 1) with 2. rewrite (Z.mul_comm 2 (Zpos p)). apply Z.mul_divide_mono_r. exact D.
  - exists 0. split; [lia|]. split; [reflexivity|]. apply Z.divide_refl.
Qed.

Lemma pow2_divide j k : 0 <= j -> j <= k -> (2 ^ j | 2 ^ k).
Proof.
  intros H1 H2. exists (2 ^ (k - j)). rewrite <- Z.pow_add_r by lia. f_equal. lia.
Qed.

Lemma c04_split_lemma : forall e addr off s, 0 <= e -> 0 <= off -> 0 <= s ->
  (2 ^ e | addr) ->
  exists k, 0 <= k /\ split_alignment (2 ^ e) off s = 2 ^ k /\
    (split_alignment (2 ^ e) off s | addr + off * s).
Proof.
  intros e addr off s He Ho Hs Ha. unfold split_alignment.
  set (B := 2 ^ e) in *. assert (HB : 0 < B) by (apply Z.pow_pos_nonneg; lia).
  pose proof (Z.mod_pos_bound (off * s) B HB) as Hm.
  remember (B - (off * s) mod B) as a eqn:Ea.
  destruct a as [|p|p]; [lia| |lia].
  fold (lowbit (Zpos p)). destruct (lowbit_spec p) as [k [Hk [E D]]].
  rewrite E. replace (Z.eqb (2 ^ k) 0) with false
    by (symmetry; apply Z.eqb_neq; pose proof (Z.pow_pos_nonneg 2 k); lia).
  exists k. split; [exact Hk|]. split; [reflexivity|].
  assert (Hke : k <= e).
  { destruct (Z_le_gt_dec k e); [assumption|].
    apply Z.divide_pos_le in D; [|lia].
    assert (2 ^ e < 2 ^ k) by (apply Z.pow_lt_mono_r; lia). unfold B in *. lia. }
  assert (DB : (2 ^ k | B)) by (apply pow2_divide; lia).
  assert (Dm : (2 ^ k | (off * s) mod B)).
  { replace ((off * s) mod B) with (B - Zpos p) by lia. apply Z.divide_sub_r; assumption. }
  apply Z.divide_add_r; [exact (Z.divide_trans _ _ _ DB Ha)|].
  rewrite (Z.div_mod (off * s) B) by lia. apply Z.divide_add_r; [|exact Dm].
  apply Z.divide_mul_l. exact DB.
Qed.

(* The promise is also the best one: an even higher power of two would be wrong
   for some object address. *)
Lemma c04_split_tight_lemma : forall e off s k, 0 <= e -> 0 <= off -> 0 <= s ->
  split_alignment (2 ^ e) off s < 2 ^ k -> 0 <= k ->
  exists addr, (2 ^ e | addr) /\ ~ (2 ^ k | addr + off * s).
Proof.
  intros e off s k He Ho Hs Hlt Hk.
  set (B := 2 ^ e) in *. assert (HB : 0 < B) by (apply Z.pow_pos_nonneg; lia).
  destruct (Zdivide_dec (2 ^ k) (0 + off * s)) as [D|]; [|exists 0; split; [apply Z.divide_0_r|assumption]].
  destruct (Zdivide_dec (2 ^ k) (B + off * s)) as [D2|]; [|exists B; split; [apply Z.divide_refl|assumption]].
  exfalso. simpl in D.
  assert (DB : (2 ^ k | B)).
  { replace B with (B + off * s - off * s) by lia. apply Z.divide_sub_r; assumption. }
  unfold split_alignment in Hlt.
  pose proof (Z.mod_pos_bound (off * s) B HB) as Hm.
  remember (B - (off * s) mod B) as a eqn:Ea.
  destruct a as [|p|p]; [lia| |lia].
  fold (lowbit (Zpos p)) in Hlt. destruct (lowbit_spec p) as [j [Hj [E Dj]]].
  rewrite E in Hlt. replace (Z.eqb (2 ^ j) 0) with false in Hlt
    by (symmetry; apply Z.eqb_neq; pose proof (Z.pow_pos_nonneg 2 j); lia).
  assert (Da : (2 ^ k | Zpos p)).
  { rewrite Ea. apply Z.divide_sub_r; [assumption|].
    rewrite Z.mod_eq by lia. apply Z.divide_sub_r; [assumption|].
    apply Z.divide_mul_l. assumption. }
  assert (Hjk : j < k) by (apply Z.pow_lt_mono_r_iff in Hlt; lia).
  (* lowbit is the largest power dividing *)
  clear - Da E Hjk Hj Hk. revert j k Hj Hjk Hk E Da.
  induction p as [p IH|p IH|]; intros j k Hj Hjk Hk E D.
  - destruct D as [q Hq]. replace k with (1 + (k - 1)) in Hq by lia.
    rewrite Z.pow_add_r in Hq by lia. change (2 ^ 1) with 2 in Hq. lia.
  - rewrite Pos2Z.inj_xO, lowbit_even in E by lia.
    assert (0 < j).
    { destruct (Z.eq_dec j 0) as [->|]; [|lia]. change (2 ^ 0) with 1 in E. lia. }
    apply (IH (j - 1) (k - 1)); try lia.
    + replace j with (1 + (j - 1)) in E by lia. rewrite Z.pow_add_r in E by lia.
      change (2 ^ 1) with 2 in E. lia.
    + destruct D as [q Hq]. exists q. rewrite Pos2Z.inj_xO in Hq.
      replace k with (1 + (k - 1)) in Hq by lia. rewrite Z.pow_add_r in Hq by lia.
      change (2 ^ 1) with 2 in Hq. lia.
  - destruct D as [q Hq]. replace k with (1 + (k - 1)) in Hq by lia.
    rewrite Z.pow_add_r in Hq by lia. change (2 ^ 1) with 2 in Hq. lia.
Qed.

Lemma bit_ceil_pow2 x : exists k, bit_ceil x = (2 ^ k)%nat.
Proof. eexists. reflexivity. Qed.

Lemma bit_ceil_ge x : (1 <= x)%nat -> (x <= bit_ceil x)%nat.
Proof.
  intros H. unfold bit_ceil. destruct (Nat.eq_dec x 1) as [->|]; [reflexivity|].
  apply Nat.log2_up_spec. lia.
Qed.

Lemma bit_ceil_least x k : (x <= 2 ^ k)%nat -> (bit_ceil x <= 2 ^ k)%nat.
Proof.
  intros H. unfold bit_ceil. apply Nat.pow_le_mono_r; [lia|].
  rewrite <- (Nat.log2_up_pow2 k) by lia. apply Nat.log2_up_le_mono. exact H.
Qed.

Lemma bit_ceil_mono x y : (x <= y)%nat -> (bit_ceil x <= bit_ceil y)%nat.
Proof.
  intros H. unfold bit_ceil. apply Nat.pow_le_mono_r; [lia|].
  apply Nat.log2_up_le_mono. exact H.
Qed.

Lemma c04_memory_alignment_lemma : forall s n, (1 <= s)%nat -> (1 <= n)%nat ->
  (exists k, vector_alignment s n = 2 ^ k)%nat /\
  (s * n <= vector_alignment s n)%nat /\
  (forall k, s * n <= 2 ^ k -> vector_alignment s n <= 2 ^ k)%nat.
Proof.
  intros s n Hs Hn. split; [apply bit_ceil_pow2|]. split.
  - apply bit_ceil_ge. nia.
  - intros k. apply bit_ceil_least.
Qed.

Lemma bit_ceil_divide x y : (x <= y)%nat ->
  (Z.of_nat (bit_ceil x) | Z.of_nat (bit_ceil y)).
Proof.
  intros H. unfold bit_ceil. rewrite !Nat2Z.inj_pow. apply pow2_divide; [lia|].
  apply Nat2Z.inj_le. apply Nat.log2_up_le_mono. exact H.
Qed.

Lemma c04_split_array_lemma : forall t vsize parts i addr,
  (1 <= esize t)%nat -> (1 <= vsize)%nat -> (1 <= parts)%nat -> (i < parts)%nat ->
  fixed_no_padding t vsize ->
  (Z.of_nat (bit_ceil (parts * vsize * esize t)) | addr) ->
  (Z.of_nat (split_array_promise t vsize) | split_array_address addr t vsize i).
Proof.
  intros t vsize parts i addr Hp Hv H1 Hi [q Hq] Ha.
  unfold split_array_promise, split_array_address, vector_alignment.
  rewrite Nat.mul_comm. apply Z.divide_add_r.
  - eapply Z.divide_trans; [|exact Ha]. apply bit_ceil_divide. nia.
  - replace (i * vsize * esize t)%nat with (i * (vsize * esize t))%nat by lia.
    replace (Z.of_nat (i * (vsize * esize t)))
      with (Z.of_nat (i * q) * Z.of_nat (bit_ceil (vsize * esize t)))
      by (rewrite <- Nat2Z.inj_mul, <- Nat.mul_assoc, <- Hq; reflexivity).
    apply Z.divide_factor_r.
Qed.

(* scalar parts: vsize = 1; the promise is bit_ceil(sizeof(T)) *)
Lemma c04_split_scalar_lemma : forall t k parts i addr,
  esize t = (2 ^ k)%nat -> (1 <= parts)%nat -> (i < parts)%nat ->
  (Z.of_nat (bit_ceil (parts * 1 * esize t)) | addr) ->
  (Z.of_nat (split_array_promise t 1) | split_array_address addr t 1 i).
Proof.
  intros t k parts i addr Hs H1 Hi Ha.
  assert (1 <= esize t)%nat by (rewrite Hs; pose proof (Nat.pow_nonzero 2 k); lia).
  apply (c04_split_array_lemma t 1 parts i addr); auto.
  exists 1%nat. rewrite !Nat.mul_1_l, Hs. unfold bit_ceil.
  rewrite Nat.log2_up_pow2 by lia. reflexivity.
Qed.

Lemma c04_refuted_lemma : exists t parts i addr,
  elem_ok t /\ (i < parts)%nat /\
  (Z.of_nat (bit_ceil (parts * 1 * esize t)) | addr) /\
  ~ (Z.of_nat (split_array_promise t 1) | split_array_address addr t 1 i).
Proof.
  exists (TLongDouble 12), 2%nat, 1%nat, 0. split; [simpl; lia|].
  split; [lia|]. split; [apply Z.divide_0_r|].
  intros [q H]. change (12 = q * 16) in H. lia.
Qed.

Lemma c04_convert_refuted_lemma : exists u n al addr,
  elem_ok u /\ al = esize u /\ (1 <= n)%nat /\ (n <= 32)%nat /\
  convert_ctor_address_ok al addr /\ ~ (Z.of_nat (convert_ctor_promise u n) | addr).
Proof.
  exists (TInt 4), 4%nat, 4%nat, 4. simpl. repeat split; try lia.
  - apply Z.divide_refl.
  - intros [q H]. change (4 = q * 16) in H. lia.
Qed.

Lemma c04_align_pow2_lemma : forall I t al a,
  elem_ok t -> abi_valid I t a = true -> (exists k, al = 2 ^ k)%nat ->
  exists k, abi_align I t al a = (2 ^ k)%nat.
Proof.
  intros I t al a Ht Hv Hal. destruct a; simpl abi_align; auto using bit_ceil_pow2.
  all: unfold vector_type_bytes; destruct (_ && _)%bool; [exists 4%nat; reflexivity|];
    pose proof (elem_ok_pos t Ht) as Hp;
    match goal with |- context [Nat.ltb ?x ?y] => destruct (Nat.ltb_spec x y) as [C|C] end;
    [|apply bit_ceil_pow2]; exfalso; simpl in Hv; btrue;
    match type of C with (bit_ceil ?x < _)%nat => pose proof (bit_ceil_ge x) end; simpl abi_size in *; nia.
Qed.
